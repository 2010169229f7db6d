(** * Properties of green trees (C01, C02, C04, C05, C46 (green part), C50) *)
From Verif Require Import GreenIter.

(** ** C01 *)
(** every element of every tree obtainable through the green API: the stored
    length is the byte length of the printed text, which fits in u32 *)
Theorem c01_text_len_exact g p c :
  built g -> gsub g p = Some c ->
  green_text_len c = Ok (blen (green_display c)) /\ (blen (green_display c) <= u32_max)%N.
Proof.
  intros Hb Hs. assert (wfg c) by (eapply wfg_gsub; [by apply built_wfg|done]).
  rewrite green_display_text. split; [by apply wfg_text_len|by apply wfg_bound].
Qed.
Print Assumptions c01_text_len_exact.

(** example *)
Definition ex_tok1 := green_token_new 1 10 [102; 233]%N. (* "fé", 3 bytes *)
Definition ex_tok2 := green_token_new 2 11 [32]%N.
(** example *)
Definition ex_leaf := GNode 3 20 3 [(0%N, ex_tok1)].
(** example *)
Definition ex_root := GNode 4 21 7 [(0%N, ex_leaf); (3%N, ex_tok2); (4%N, ex_leaf)].
Lemma ex_built : built ex_root.
Proof.
  apply (built_node 4 21 [ex_leaf; ex_tok2; ex_leaf]); [|vm_compute; reflexivity].
  assert (built ex_leaf).
  { apply (built_node 3 20 [ex_tok1]); [|vm_compute; reflexivity].
    repeat constructor. vm_compute; discriminate. }
  repeat constructor; try done; vm_compute; discriminate.
Qed.
Example c01_nonvacuous : built ex_root /\ gsub ex_root [2; 0] = Some ex_tok1 /\ green_text_len ex_root = Ok 7%N.
Proof. split; [apply ex_built|done]. Qed.

(** ** C02 *)
Theorem c02_checked_panics_iff a k els :
  Forall built els ->
  match green_new Checked a k els with
  | Ok g => (blen (concat (map green_display els)) <= u32_max)%N
  | Err e => e = Panic /\ (u32_max < blen (concat (map green_display els)))%N
  end.
Proof.
  intros H. assert (HF : Forall wfg els) by (eapply Forall_impl; [exact H|apply built_wfg]).
  replace (concat (map green_display els)) with (gctext els).
  2:{ unfold gctext. f_equal. apply map_ext. intros; by rewrite green_display_text. }
  pose proof (green_new_exact a k els HF) as E. destruct (green_new Checked a k els); naive_solver.
Qed.
Print Assumptions c02_checked_panics_iff.

(** the release build agrees whenever the checked one succeeds *)
Theorem c02_release_agrees a k els g :
  Forall built els -> green_new Checked a k els = Ok g -> green_new Wrapping a k els = Ok g.
Proof.
  intros H Hg. assert (HF : Forall wfg els) by (eapply Forall_impl; [exact H|apply built_wfg]).
  apply green_new_Ok in Hg as (Hb&_&->); [|done]. by apply green_new_fits.
Qed.
Print Assumptions c02_release_agrees.

(** ... and otherwise stores the length modulo 2^32, which is wrong *)
Theorem c02_release_wraps a k els :
  Forall built els -> green_new Checked a k els = Err Panic ->
  exists g, green_new Wrapping a k els = Ok g /\ kids g = els /\
    green_text_len g = Ok (blen (green_display g) mod 4294967296)%N /\
    green_text_len g <> Ok (blen (green_display g)).
Proof.
  intros H Hg. assert (HF : Forall wfg els) by (eapply Forall_impl; [exact H|apply built_wfg]).
  pose proof (green_new_exact a k els HF) as E. rewrite Hg in E. destruct E as [_ Hb].
  destruct (green_new_wraps a k els HF) as (cs&Hn&Hs). eexists. split; [exact Hn|]. split; [done|].
  rewrite green_display_text, gtext_node, Hs. simpl. split; [done|]. intros [= E].
  pose proof (N.mod_upper_bound (blen (gctext els)) (u32_max + 1) ltac:(done)).
  unfold u32_max in *. lia.
Qed.
Print Assumptions c02_release_wraps.

Example c02_nonvacuous :
  (exists els, Forall built els /\ green_new Checked 9 0 els = Err Panic) /\
  green_new Checked 9 5 [ex_root; ex_tok1] = Ok (GNode 9 5 10 [(0%N, ex_root); (7%N, ex_tok1)]).
Proof.
  split; [|vm_compute; reflexivity].
  assert (exists s, blen s = 3000000000%N) as [s Hs].
  { exists (replicate (N.to_nat 3000000000) 97%N). rewrite blen_replicate, N2Nat.id. reflexivity. }
  assert (Hb : built (GTok 1 0 s)) by (apply (built_token 1 0 s); rewrite Hs; done).
  exists [GTok 1 0 s; GTok 1 0 s]. assert (HF : Forall built [GTok 1 0 s; GTok 1 0 s]) by (by repeat apply Forall_cons_2).
  split; [done|]. apply green_new_overflow; [eapply Forall_impl; [exact HF|apply built_wfg]|].
  unfold gctext, gtext. simpl. rewrite !blen_app, Hs. done.
Qed.

(** ** C04 *)
(** [splice_children] with any range bounds *)
Theorem c04_splice a g lo hi repl :
  built g -> Forall built repl ->
  let s := bound_start lo in let e := bound_end (length (kids g)) hi in
  let new := take s (kids g) ++ repl ++ drop e (kids g) in
  match green_splice_children Checked a g lo hi repl with
  | Ok g' => s <= e <= length (kids g) /\ gkind g' = gkind g /\ gis_node g' = true /\ kids g' = new
  | Err er => er = Panic /\
      (~ (s <= e <= length (kids g)) \/ (u32_max < blen (concat (map green_display new)))%N)
  end.
Proof.
  intros Hg Hr s e new.
  replace (concat (map green_display new)) with (gctext new).
  2:{ unfold gctext. f_equal. apply map_ext. intros; by rewrite green_display_text. }
  apply splice_exact; [by apply built_wfg|eapply Forall_impl; [exact Hr|apply built_wfg]].
Qed.
Print Assumptions c04_splice.

Theorem c04_insert a g i new :
  built g -> built new ->
  match green_insert_child Checked a g i new with
  | Ok g' => i <= length (kids g) /\ gkind g' = gkind g /\ gis_node g' = true /\
             kids g' = take i (kids g) ++ new :: drop i (kids g)
  | Err er => er = Panic /\ (length (kids g) < i \/
      (u32_max < blen (concat (map green_display (take i (kids g) ++ new :: drop i (kids g)))))%N)
  end.
Proof.
  intros Hg Hn. pose proof (c04_splice a g (Included i) (Excluded i) [new] Hg (Forall_cons_2 _ _ _ Hn (Forall_nil_2 _))) as H.
  unfold green_insert_child. simpl in H. destruct (green_splice_children _ _ _ _ _ _).
  - destruct H as (?&?&?&?). split; [lia|done].
  - destruct H as [-> [?|?]]; split; [done|left; lia|done|by right].
Qed.
Print Assumptions c04_insert.

Theorem c04_remove a g i :
  built g ->
  match green_remove_child Checked a g i with
  | Ok g' => i < length (kids g) /\ gkind g' = gkind g /\ gis_node g' = true /\
             kids g' = take i (kids g) ++ drop (S i) (kids g)
  | Err er => er = Panic /\ length (kids g) <= i
  end.
Proof.
  intros Hg. pose proof (c04_splice a g (Included i) (Included i) [] Hg ltac:(constructor)) as H.
  unfold green_remove_child. simpl in H. destruct (green_splice_children _ _ _ _ _ _).
  - destruct H as (?&?&?&?). split; [lia|done].
  - destruct H as [-> [?|Hb]]; (split; [done|]); [lia|].
    destruct (decide (length (kids g) <= i)) as [|Hlt]; [done|]. exfalso.
    destruct (lookup_lt_is_Some_2 (kids g) i) as [c Hc]; [lia|].
    pose proof (wfg_bound g (built_wfg g Hg)) as Hgb.
    assert (Hn : gis_node g = true) by (by destruct g).
    rewrite gtext_kids in Hgb by done. rewrite <- (take_drop_middle _ _ _ Hc) in Hgb.
    assert (E : forall l, concat (map green_display l) = gctext l).
    { intros l. unfold gctext. f_equal. apply map_ext. intros; by rewrite green_display_text. }
    rewrite E, gctext_app, blen_app in Hb. rewrite gctext_app, blen_app in Hgb.
    unfold gctext in *. simpl in *. rewrite blen_app in Hgb. lia.
Qed.
Print Assumptions c04_remove.

(** [replace_child]; with an index that is not a child it returns an equal copy *)
Theorem c04_replace a g i new :
  built g -> gis_node g = true -> built new ->
  match green_replace_child Checked a g i new with
  | Ok g' => gkind g' = gkind g /\ gis_node g' = true /\ kids g' = <[i := new]> (kids g) /\
             (length (kids g) <= i -> kids g' = kids g /\ green_eqb g' g = true)
  | Err er => er = Panic /\ i < length (kids g) /\
              (u32_max < blen (concat (map green_display (<[i := new]> (kids g)))))%N
  end.
Proof.
  intros Hg Hn Hnew. pose proof (replace_exact a g i new (built_wfg _ Hg) (built_wfg _ Hnew)) as H.
  destruct (green_replace_child Checked a g i new) as [g'|er] eqn:E.
  - destruct H as (H1&H2&H3). repeat (split; [done|]). intros Hi.
    assert (Hk : kids g' = kids g) by (rewrite H3; by apply list_insert_ge).
    split; [done|]. apply erase_green_eqb; [|by apply built_wfg|by apply erase_determined].
    apply built_wfg. exact (built_replace _ _ _ _ _ Hg Hnew E).
  - destruct H as [-> H]. split; [done|].
    destruct (decide (i < length (kids g))) as [|Hi].
    + split; [done|].
      assert (El : forall l, concat (map green_display l) = gctext l).
      { intros ?. unfold gctext. f_equal. apply map_ext. intros; by rewrite green_display_text. }
      by rewrite El.
    + exfalso. rewrite list_insert_ge in H by lia. pose proof (wfg_bound g (built_wfg _ Hg)) as Hb.
      rewrite gtext_kids in Hb by done. lia.
Qed.
Print Assumptions c04_replace.

Example c04_nonvacuous :
  green_splice_children Checked 9 ex_root (Included 1) (Excluded 3) [ex_tok1; ex_tok1] =
    Ok (GNode 9 21 9 [(0%N, ex_leaf); (3%N, ex_tok1); (6%N, ex_tok1)]) /\
  green_remove_child Checked 9 ex_root 3 = Err Panic /\
  green_replace_child Checked 9 ex_root 1 ex_leaf = Ok (GNode 9 21 9 [(0%N, ex_leaf); (3%N, ex_leaf); (6%N, ex_leaf)]).
Proof. vm_compute. done. Qed.

(** ** C05 *)
Theorem c05_equality_structural g1 g2 :
  built g1 -> built g2 -> (green_eqb g1 g2 = true <-> erase g1 = erase g2).
Proof.
  intros H1 H2. split; [apply green_eqb_erase|].
  apply erase_green_eqb; by apply built_wfg.
Qed.
Print Assumptions c05_equality_structural.

Theorem c05_equal_same_hash g1 g2 :
  built g1 -> built g2 -> green_eqb g1 g2 = true -> green_hash_feed g1 = green_hash_feed g2.
Proof.
  intros H1 H2 H. apply green_hash_feed_erase; [by apply built_wfg..|]. by apply green_eqb_erase.
Qed.
Print Assumptions c05_equal_same_hash.

(** the two sides of the example are different allocations *)
Example c05_nonvacuous :
  let g2 := GNode 14 21 7 [(0%N, GNode 13 20 3 [(0%N, GTok 11 10 [102; 233]%N)]); (3%N, ex_tok2); (4%N, ex_leaf)] in
  green_eqb ex_root g2 = true /\ ex_root <> g2 /\ green_eqb ex_leaf ex_root = false.
Proof. vm_compute. done. Qed.

(** ** C46, green part *)
Theorem c46_green_display g : green_display g = ttext (erase g).
Proof. exact (green_display_text g). Qed.
Print Assumptions c46_green_display.
Example c46_green_nonvacuous : green_display ex_root = [102; 233; 32; 102; 233]%N.
Proof. done. Qed.

(** ** C50 *)
(** any interleaving of the four ways to advance gives what a double-ended
    queue of the children gives, and [len] is the number remaining *)
Theorem c50_children_deque g ops :
  let '(xs, it) := ci_run ops (green_children g) in
  xs = fst (dq_run ops (kids g)) /\ ci_len it = length (snd (dq_run ops (kids g))).
Proof. exact (green_children_run g ops). Qed.
Print Assumptions c50_children_deque.

Theorem c50_children_fold {A} g ops (f : A -> green -> A) acc :
  let '(_, it) := ci_run ops (green_children g) in
  let rest := snd (dq_run ops (kids g)) in
  ci_fold (S (length rest)) f acc it = Ok (fold_left f rest acc) /\
  ci_rfold (S (length rest)) f acc it = Ok (fold_left f (reverse rest) acc).
Proof.
  pose proof (ci_run_spec ops (green_children g) (green_children_wf g)) as H.
  destruct (ci_run ops (green_children g)) as [xs it]. destruct H as [H1 H2].
  rewrite green_children_rest in H1. rewrite H1. cbv zeta. cbn [snd].
  pose proof (ci_rest_length it H2).
  split; [apply ci_fold_spec|apply ci_rfold_spec]; done || lia.
Qed.
Print Assumptions c50_children_fold.

Example c50_nonvacuous :
  fst (ci_run [INextBack; INext; INth 0; INext] (green_children ex_root)) =
  [Some ex_leaf; Some ex_leaf; Some ex_tok2; None].
Proof. done. Qed.
