(** * Facts about green trees (proofs only). *)
From Verif Require Export Green.

(** proof device, no counterpart in the code *)
Fixpoint green_ind' (P : green -> Prop)
  (Hn : forall a k tl cs, Forall (fun c => P c.2) cs -> P (GNode a k tl cs))
  (Ht : forall a k s, P (GTok a k s)) (g : green) : P g :=
  match g with
  | GNode a k tl cs => Hn a k tl cs ((fix go (cs : list (N * green)) : Forall (fun c => P c.2) cs :=
      match cs with
      | [] => Forall_nil_2 _
      | c :: cs' => Forall_cons_2 _ c cs' (green_ind' P Hn Ht c.2) (go cs')
      end) cs)
  | GTok a k s => Ht a k s
  end.

(** ** Erasure *)
(** proof device, no counterpart in the code *)
Definition gtext (g : green) : str := ttext (erase g).

Lemma erase_kind g : tkind (erase g) = gkind g.
Proof. by destruct g. Qed.
Lemma erase_is_node g : is_node (erase g) = gis_node g.
Proof. by destruct g. Qed.
Lemma erase_children g : tchildren (erase g) = map erase (kids g).
Proof. destruct g; unfold kids; simpl; [|done]. by rewrite map_map. Qed.
Lemma lookup_map {A B} (f : A -> B) l i : map f l !! i = f <$> (l !! i).
Proof. apply list_lookup_fmap. Qed.
Lemma length_map {A B} (f : A -> B) l : length (map f l) = length l.
Proof. apply fmap_length. Qed.
Lemma take_map {A B} (f : A -> B) l i : take i (map f l) = map f (take i l).
Proof. symmetry. apply fmap_take. Qed.
Lemma drop_map {A B} (f : A -> B) l i : drop i (map f l) = map f (drop i l).
Proof. symmetry. apply fmap_drop. Qed.
Lemma lookup_erase_children g i :
  tchildren (erase g) !! i = (fun c => erase c.2) <$> (gchildren g !! i).
Proof. rewrite erase_children. unfold kids. rewrite map_map, lookup_map. done. Qed.
Lemma length_erase_children g : length (tchildren (erase g)) = length (gchildren g).
Proof. rewrite erase_children. unfold kids. by rewrite !length_map. Qed.

Lemma erase_gsub g p : tsub (erase g) p = erase <$> gsub g p.
Proof.
  revert g. induction p as [|i p IH]; intros g; simpl; [done|].
  rewrite lookup_erase_children. destruct (gchildren g !! i); simpl; [|done]. apply IH.
Qed.
Lemma gsub_app g p q : gsub g (p ++ q) = match gsub g p with Some c => gsub c q | None => None end.
Proof.
  revert g. induction p as [|i p IH]; intros g; simpl; [done|].
  destruct (gchildren g !! i); [apply IH|done].
Qed.
Lemma gsub_snoc g p i :
  gsub g (p ++ [i]) = match gsub g p with Some c => snd <$> gchildren c !! i | None => None end.
Proof. rewrite gsub_app. destruct (gsub g p); [|done]. simpl. by destruct (_ !! _). Qed.

(** ** Text and lengths *)
(** proof device, no counterpart in the code *)
Definition gctext (cs : list green) : str := concat (map gtext cs).
Lemma gctext_app l1 l2 : gctext (l1 ++ l2) = gctext l1 ++ gctext l2.
Proof. unfold gctext. by rewrite map_app, concat_app. Qed.
Lemma gctext_ctext l : gctext l = ctext (map erase l).
Proof. unfold gctext, ctext, gtext. by rewrite map_map. Qed.
Lemma gtext_node a k tl cs : gtext (GNode a k tl cs) = gctext (map snd cs).
Proof. unfold gtext, gctext. simpl. by rewrite !map_map. Qed.
Lemma gtext_kids g : gis_node g = true -> gtext g = gctext (kids g).
Proof. destruct g; [|done]. intros _. apply gtext_node. Qed.

Lemma green_display_text g : green_display g = gtext g.
Proof.
  induction g as [a k tl cs IH|a k s] using green_ind'; [|done].
  unfold gtext. simpl. rewrite map_map.
  induction IH as [|c cs Hc Hcs IH']; simpl; [done|]. by rewrite Hc, IH'.
Qed.

Lemma wfg_node_inv a k tl cs :
  wfg (GNode a k tl cs) ->
  Forall wfg (map snd cs) /\ tl = blen (gctext (map snd cs)) /\ (tl <= u32_max)%N /\
  (forall i c, cs !! i = Some c -> c.1 = blen (gctext (take i (map snd cs)))).
Proof.
  inversion 1 as [|???? H1 H2 H3 H4]; subst.
  split; [by apply List.Forall_map|]. unfold gctext, gtext. rewrite map_map.
  split; [done|]. split; [done|].
  intros i c Hc. rewrite (H4 _ _ Hc). by rewrite take_map, map_map.
Qed.
Lemma wfg_node_intro a k tl cs :
  Forall wfg (map snd cs) -> tl = blen (gctext (map snd cs)) -> (tl <= u32_max)%N ->
  (forall i c, cs !! i = Some c -> c.1 = blen (gctext (take i (map snd cs)))) ->
  wfg (GNode a k tl cs).
Proof.
  unfold gctext, gtext. rewrite map_map. intros H1 H2 H3 H4. constructor; [|done..|].
  - exact (proj1 (List.Forall_map _ _ _) H1).
  - intros i c Hc. rewrite (H4 _ _ Hc). by rewrite take_map, map_map.
Qed.

Lemma wfg_glen g : wfg g -> glen g = blen (gtext g).
Proof.
  destruct g as [a k tl cs|a k s]; intros H; [|done].
  apply wfg_node_inv in H as (_&H&_). by rewrite gtext_node.
Qed.
Lemma wfg_bound g : wfg g -> (blen (gtext g) <= u32_max)%N.
Proof.
  intros H. rewrite <- wfg_glen by done. destruct g as [a k tl cs|a k s]; [|by inversion H].
  by apply wfg_node_inv in H as (_&_&H&_).
Qed.
Lemma wfg_text_len g : wfg g -> green_text_len g = Ok (blen (gtext g)).
Proof.
  intros H. rewrite <- (wfg_glen g H). destruct g as [a k tl cs|a k s]; simpl; [done|].
  inversion H; subst. destruct (N.leb_spec (blen s) u32_max); [done|lia].
Qed.
Lemma wfg_kids g : wfg g -> Forall wfg (kids g).
Proof.
  destruct g as [a k tl cs|a k s]; intros H; [|constructor]. by apply wfg_node_inv in H as (H&_).
Qed.
Lemma wfg_child g i c : wfg g -> gchildren g !! i = Some c ->
  wfg c.2 /\ c.1 = blen (gctext (take i (kids g))).
Proof.
  destruct g as [a k tl cs|a k s]; simpl; intros H Hc; [|by rewrite lookup_nil in Hc].
  apply wfg_node_inv in H as (H1&_&_&H4). split; [|by apply H4].
  eapply Forall_lookup_1; [exact H1|]. by rewrite lookup_map, Hc.
Qed.
Lemma wfg_gsub g p c : wfg g -> gsub g p = Some c -> wfg c.
Proof.
  revert g. induction p as [|i p IH]; intros g Hg; simpl; [by intros [= ->]|].
  destruct (gchildren g !! i) as [d|] eqn:E; [|done].
  apply IH. by eapply wfg_child.
Qed.

(** ** Construction *)
(** proof device, no counterpart in the code *)
Fixpoint with_offsets (o : N) (els : list green) : list (N * green) :=
  match els with
  | [] => []
  | el :: els' => (o, el) :: with_offsets (o + blen (gtext el)) els'
  end.
Lemma with_offsets_snd o els : map snd (with_offsets o els) = els.
Proof. revert o. induction els as [|e els IH]; intros o; simpl; [done|]. by rewrite IH. Qed.
Lemma with_offsets_lookup o els i c :
  with_offsets o els !! i = Some c -> c.1 = (o + blen (gctext (take i els)))%N.
Proof.
  revert o i. induction els as [|e els IH]; intros o i; simpl; [by rewrite lookup_nil|].
  destruct i as [|i]; simpl.
  - intros [= <-]. unfold gctext. simpl. lia.
  - intros H. rewrite (IH _ _ H). unfold gctext. simpl. rewrite blen_app. lia.
Qed.

Lemma assign_offsets_fits pr o els :
  Forall wfg els -> (o + blen (gctext els) <= u32_max)%N ->
  assign_offsets pr o els = Ok (with_offsets o els, (o + blen (gctext els))%N).
Proof.
  intros H. revert o. induction H as [|e els He Hels IH]; intros o Hb; simpl.
  - unfold gctext in *; simpl in *. do 2 f_equal. lia.
  - rewrite wfg_text_len by done. unfold gctext in *. simpl in *. rewrite blen_app in *.
    unfold add32. destruct (N.leb_spec (o + blen (gtext e)) u32_max); [|lia]. simpl.
    rewrite IH by lia. simpl. do 2 f_equal. lia.
Qed.
Lemma assign_offsets_overflow o els :
  Forall wfg els -> (u32_max < o + blen (gctext els))%N -> (o <= u32_max)%N ->
  assign_offsets Checked o els = Err Panic.
Proof.
  intros H. revert o. induction H as [|e els He Hels IH]; intros o Hb Ho; simpl.
  - unfold gctext in *; simpl in *. lia.
  - rewrite wfg_text_len by done. unfold gctext in *. simpl in *. rewrite blen_app in *.
    unfold add32. destruct (N.leb_spec (o + blen (gtext e)) u32_max); [|done]. simpl.
    rewrite IH by lia. done.
Qed.
Lemma assign_offsets_wrap o els :
  Forall wfg els -> (o <= u32_max)%N ->
  exists cs, assign_offsets Wrapping o els = Ok (cs, ((o + blen (gctext els)) mod (u32_max + 1))%N) /\
    map snd cs = els.
Proof.
  intros H. revert o. induction H as [|e els He Hels IH]; intros o Ho; simpl.
  - exists []. unfold gctext; simpl. split; [|done]. do 2 f_equal.
    rewrite N.mod_small by lia. lia.
  - rewrite wfg_text_len by done. unfold gctext in *. simpl in *.
    set (o' := if (o + blen (gtext e) <=? u32_max)%N then (o + blen (gtext e))%N
               else ((o + blen (gtext e)) mod (u32_max + 1))%N).
    assert (Ho' : o' = ((o + blen (gtext e)) mod (u32_max + 1))%N).
    { unfold o'. destruct (N.leb_spec (o + blen (gtext e)) u32_max); [|done].
      rewrite N.mod_small by lia. done. }
    assert (Hlt : (o' <= u32_max)%N).
    { rewrite Ho'. pose proof (N.mod_upper_bound (o + blen (gtext e)) (u32_max + 1) ltac:(lia)). lia. }
    destruct (IH o' Hlt) as (cs&Hcs&Hs).
    exists ((o, e) :: cs). unfold add32. split; [|simpl; by rewrite Hs].
    transitivity ('(cs0, total) ← assign_offsets Wrapping o' els; Ok ((o, e) :: cs0, total)).
    { unfold o'. by destruct (N.leb_spec (o + blen (gtext e)) u32_max). }
    rewrite Hcs. simpl. do 2 f_equal. rewrite Ho', N.add_mod_idemp_l by lia.
    f_equal. rewrite blen_app. lia.
Qed.

Lemma green_new_fits pr a k els :
  Forall wfg els -> (blen (gctext els) <= u32_max)%N ->
  green_new pr a k els = Ok (GNode a k (blen (gctext els)) (with_offsets 0 els)).
Proof.
  intros H Hb. unfold green_new. rewrite assign_offsets_fits by (done || lia).
  simpl. do 2 f_equal.
Qed.
Lemma green_new_overflow a k els :
  Forall wfg els -> (u32_max < blen (gctext els))%N -> green_new Checked a k els = Err Panic.
Proof.
  intros H Hb. unfold green_new. rewrite assign_offsets_overflow; [done|done|lia|lia].
Qed.
Lemma green_new_wraps a k els :
  Forall wfg els ->
  exists cs, green_new Wrapping a k els = Ok (GNode a k (blen (gctext els) mod (u32_max + 1)) cs) /\
    map snd cs = els.
Proof.
  intros H. destruct (assign_offsets_wrap 0 els H ltac:(lia)) as (cs&Hcs&Hs).
  exists cs. split; [|done]. unfold green_new. by rewrite Hcs.
Qed.
Lemma wfg_with_offsets a k els :
  Forall wfg els -> (blen (gctext els) <= u32_max)%N ->
  wfg (GNode a k (blen (gctext els)) (with_offsets 0 els)).
Proof.
  intros H Hb. apply wfg_node_intro; rewrite ?with_offsets_snd; [done..|].
  intros i c Hc. rewrite (with_offsets_lookup _ _ _ _ Hc). lia.
Qed.
Lemma green_new_Ok a k els g :
  Forall wfg els -> green_new Checked a k els = Ok g ->
  (blen (gctext els) <= u32_max)%N /\ wfg g /\ g = GNode a k (blen (gctext els)) (with_offsets 0 els).
Proof.
  intros H Hg. destruct (N.le_gt_cases (blen (gctext els)) u32_max) as [Hb|Hb].
  - rewrite green_new_fits in Hg by done. injection Hg as <-.
    split; [done|]. split; [by apply wfg_with_offsets|done].
  - rewrite green_new_overflow in Hg by done. done.
Qed.
(** the stored data is determined by the element list *)
Lemma wfg_node_canonical a k tl cs :
  wfg (GNode a k tl cs) -> tl = blen (gctext (map snd cs)) /\ cs = with_offsets 0 (map snd cs).
Proof.
  intros H. apply wfg_node_inv in H as (_&H2&_&H4). split; [done|].
  apply list_eq. intros i. destruct (with_offsets 0 (map snd cs) !! i) as [d|] eqn:E.
  - pose proof (with_offsets_lookup _ _ _ _ E) as Ed.
    assert (Hs : map snd (with_offsets 0 (map snd cs)) !! i = Some d.2) by by rewrite lookup_map, E.
    rewrite with_offsets_snd, lookup_map in Hs. apply fmap_Some in Hs as (c&Hc&Hcd).
    rewrite Hc. f_equal. pose proof (H4 _ _ Hc). destruct c, d; simpl in *. subst. done.
  - apply lookup_ge_None in E. apply lookup_ge_None.
    rewrite <- (length_map snd (with_offsets 0 (map snd cs))), with_offsets_snd, length_map in E. done.
Qed.

(** ** Edits *)
Lemma vec_splice_ok {A} (l : list A) lo hi repl :
  bound_start lo <= bound_end (length l) hi <= length l ->
  vec_splice l lo hi repl = Ok (take (bound_start lo) l ++ repl ++ drop (bound_end (length l) hi) l).
Proof.
  intros H. unfold vec_splice.
  destruct (Nat.leb_spec (bound_start lo) (bound_end (length l) hi)); [|lia].
  destruct (Nat.leb_spec (bound_end (length l) hi) (length l)); [|lia]. done.
Qed.
Lemma vec_splice_panic {A} (l : list A) lo hi repl :
  ~ (bound_start lo <= bound_end (length l) hi <= length l) ->
  vec_splice l lo hi repl = Err Panic.
Proof.
  intros H. unfold vec_splice.
  destruct (Nat.leb_spec (bound_start lo) (bound_end (length l) hi)); [|done].
  destruct (Nat.leb_spec (bound_end (length l) hi) (length l)); [lia|done].
Qed.
Lemma Forall_take_drop {A} (P : A -> Prop) l i j repl :
  Forall P l -> Forall P repl -> Forall P (take i l ++ repl ++ drop j l).
Proof.
  intros Hl Hr. rewrite !Forall_app. split; [by apply Forall_take|]. split; [done|by apply Forall_drop].
Qed.
Lemma replace_nth_insert {A} (l : list A) i x :
  map (fun '(j, c) => if j =? i then x else c) (enumerate l) = <[i:=x]> l.
Proof.
  apply list_eq. intros j. rewrite lookup_map, lookup_enumerate.
  destruct (decide (i = j)) as [->|Hne].
  - destruct (l !! j) as [y|] eqn:E; simpl.
    + rewrite Nat.eqb_refl, list_lookup_insert; [done|]. by eapply lookup_lt_Some.
    + symmetry. apply lookup_ge_None. rewrite insert_length. by apply lookup_ge_None.
  - rewrite list_lookup_insert_ne by done. destruct (l !! j); simpl; [|done].
    destruct (Nat.eqb_spec j i); [congruence|done].
Qed.

Lemma built_wfg g : built g -> wfg g.
Proof.
  revert g. fix IH 2. intros g H. destruct H as [a k s Hs|a k els g Hels Hg|a g lo hi repl g' Hb Hr Hg|a g i new g' Hb Hn Hg].
  - by constructor.
  - assert (Forall wfg els) as Hw by (clear Hg; induction Hels; constructor; auto).
    by apply green_new_Ok in Hg as (_&?&_).
  - assert (Forall wfg repl) as Hw by (clear Hg; induction Hr; constructor; auto).
    apply IH in Hb. unfold green_splice_children in Hg.
    apply res_bind_ok in Hg as (l&Hl&Hg).
    apply green_new_Ok in Hg as (_&?&_); [done|].
    unfold vec_splice in Hl. destruct (_ && _); [|done]. injection Hl as <-.
    apply Forall_take_drop; [|done]. by apply wfg_kids.
  - apply IH in Hb. apply IH in Hn. unfold green_replace_child in Hg. rewrite replace_nth_insert in Hg.
    apply green_new_Ok in Hg as (_&?&_); [done|].
    apply Forall_insert; [|done]. by apply wfg_kids.
Qed.

(** ** Equality *)
(** proof device, no counterpart in the code *)
Fixpoint kids_eqb (l1 l2 : list (N * green)) : bool :=
  match l1, l2 with
  | [], [] => true
  | c1 :: l1', c2 :: l2' => (c1.1 =? c2.1)%N && green_eqb c1.2 c2.2 && kids_eqb l1' l2'
  | _, _ => false
  end.
Lemma green_eqb_node a1 k1 tl1 cs1 a2 k2 tl2 cs2 :
  green_eqb (GNode a1 k1 tl1 cs1) (GNode a2 k2 tl2 cs2) =
  (k1 =? k2)%N && (tl1 =? tl2)%N && (length cs1 =? length cs2) && kids_eqb cs1 cs2.
Proof. done. Qed.

Lemma green_eqb_erase g1 g2 : green_eqb g1 g2 = true -> erase g1 = erase g2.
Proof.
  revert g2. induction g1 as [a1 k1 tl1 cs1 IH|a1 k1 s1] using green_ind'; intros [a2 k2 tl2 cs2|a2 k2 s2].
  - rewrite green_eqb_node, !andb_true_iff, !N.eqb_eq. intros [[[-> _] _] H]. simpl. f_equal.
    revert cs2 H. induction IH as [|c cs1 Hc Hcs IH']; intros [|d cs2]; simpl; [done..|].
    rewrite !andb_true_iff. intros [[_ H1] H2]. by rewrite (Hc _ H1), (IH' _ H2).
  - done.
  - done.
  - simpl. rewrite !andb_true_iff, !N.eqb_eq, bool_decide_eq_true. by intros [[-> _] ->].
Qed.
Lemma erase_green_eqb g1 g2 : wfg g1 -> wfg g2 -> erase g1 = erase g2 -> green_eqb g1 g2 = true.
Proof.
  revert g2. induction g1 as [a1 k1 tl1 cs1 IH|a1 k1 s1] using green_ind';
    intros [a2 k2 tl2 cs2|a2 k2 s2] Hw1 Hw2 Heq; try done.
  - simpl in Heq. injection Heq as -> He. rewrite green_eqb_node.
    pose proof (wfg_node_canonical _ _ _ _ Hw1) as [-> H1].
    pose proof (wfg_node_canonical _ _ _ _ Hw2) as [-> H2].
    apply wfg_kids in Hw1. apply wfg_kids in Hw2. unfold kids in Hw1, Hw2. simpl in Hw1, Hw2.
    assert (Hg : gctext (map snd cs1) = gctext (map snd cs2)).
    { rewrite !gctext_ctext, !map_map, He. done. }
    rewrite Hg, !N.eqb_refl. rewrite !andb_true_l.
    assert (Hl : length cs1 = length cs2) by (apply (f_equal length) in He; by rewrite !length_map in He).
    rewrite Hl, Nat.eqb_refl, andb_true_l.
    clear Hg Hl. rewrite H1, H2. clear H1 H2. generalize 0%N as o.
    revert cs2 Hw2 He. induction IH as [|c cs1 Hc Hcs IH']; intros [|d cs2] Hw2 He o; simpl in *; try done.
    injection He as He1 He2. inversion Hw1; subst. inversion Hw2; subst.
    rewrite N.eqb_refl, Hc by done. unfold gtext. rewrite He1. apply IH'; done.
  - simpl in Heq. injection Heq as -> ->. simpl. rewrite !N.eqb_refl. by rewrite bool_decide_eq_true_2.
Qed.

Lemma green_hash_feed_erase g1 g2 :
  wfg g1 -> wfg g2 -> erase g1 = erase g2 -> green_hash_feed g1 = green_hash_feed g2.
Proof.
  revert g2. induction g1 as [a1 k1 tl1 cs1 IH|a1 k1 s1] using green_ind';
    intros [a2 k2 tl2 cs2|a2 k2 s2] Hw1 Hw2 Heq; try done.
  - simpl in Heq. injection Heq as -> He. cbn [green_hash_feed].
    pose proof (wfg_node_canonical _ _ _ _ Hw1) as [-> H1].
    pose proof (wfg_node_canonical _ _ _ _ Hw2) as [-> H2].
    apply wfg_kids in Hw1. apply wfg_kids in Hw2. unfold kids in Hw1, Hw2. simpl in Hw1, Hw2.
    assert (Hg : gctext (map snd cs1) = gctext (map snd cs2)).
    { rewrite !gctext_ctext, !map_map, He. done. }
    rewrite Hg.
    assert (Hl : length cs1 = length cs2) by (apply (f_equal length) in He; by rewrite !length_map in He).
    rewrite Hl. do 4 f_equal. rewrite H1, H2. clear Hg Hl H1 H2.
    generalize 0%N at 2 4 as o.
    revert cs2 Hw2 He. induction IH as [|c cs1 Hc Hcs IH']; intros [|d cs2] Hw2 He o; simpl in *; try done.
    injection He as He1 He2. inversion Hw1; subst. inversion Hw2; subst.
    rewrite (Hc d.2) by done. rewrite <- !erase_is_node, He1. do 2 f_equal.
    f_equal. unfold gtext. rewrite He1. apply IH'; done.
  - simpl in Heq. by injection Heq as -> ->.
Qed.

(** ** Binary search *)
Section bs.
  Context (cmp : nat -> comparison) (len : nat).
  Context (Hgt : forall i j, i < j < len -> cmp i = Gt -> cmp j = Gt).
  Context (Hlt : forall i j, i < j < len -> cmp j = Lt -> cmp i = Lt).

  Lemma bs_loop_spec fuel size base :
    1 <= size <= fuel -> base + size <= len ->
    (forall j, base + size <= j < len -> cmp j = Gt) ->
    (0 < base -> cmp base <> Gt) ->
    let b := bs_loop cmp fuel size base in
    b < len /\ (forall j, b < j < len -> cmp j = Gt) /\ (0 < b -> cmp b <> Gt).
  Proof using Hgt Hlt.
    revert size base. induction fuel as [|fuel IH]; intros size base Hs Hb Hj H0; simpl; [lia|].
    destruct (Nat.ltb_spec 1 size).
    - assert (Hd : 1 <= Nat.div2 size /\ Nat.div2 size < size).
      { rewrite Nat.div2_div. split; [apply Nat.div_le_lower_bound; lia|apply Nat.div_lt; lia]. }
      destruct (cmp (base + Nat.div2 size)) eqn:E.
      + apply IH; [lia|lia| |congruence]. intros j Hj'. apply Hj. lia.
      + apply IH; [lia|lia| |congruence]. intros j Hj'. apply Hj. lia.
      + apply IH; [lia|lia| |done]. intros j Hj'.
        assert (Hd2 : Nat.div2 size + Nat.div2 size <= size).
        { rewrite Nat.div2_div. pose proof (Nat.mul_div_le size 2). lia. }
        destruct (decide (j = base + Nat.div2 size)) as [->|]; [done|].
        apply (Hgt (base + Nat.div2 size)); [lia|done].
    - split; [lia|]. split; [|done]. intros j Hj'. apply Hj. lia.
  Qed.

  Lemma binary_search_by_spec :
    match binary_search_by len cmp with
    | inl b => b < len /\ cmp b = Eq
    | inr b => b <= len /\ (forall i, i < b -> cmp i = Lt) /\ (forall i, b <= i < len -> cmp i = Gt)
    end.
  Proof using Hgt Hlt.
    unfold binary_search_by. destruct (Nat.eqb_spec len 0) as [->|Hne].
    { split; [lia|]. split; intros; lia. }
    destruct (bs_loop_spec len len 0) as (H1&H2&H3); [lia|lia|intros; lia|lia|].
    set (b := bs_loop cmp len len 0) in *.
    destruct (cmp b) eqn:E.
    - done.
    - split; [lia|]. split; [|intros i Hi; apply H2; lia].
      intros i Hi. destruct (decide (i = b)) as [->|]; [done|]. apply (Hlt i b); [lia|done].
    - destruct (decide (b = 0)) as [Hb|Hb]; [|exfalso; apply H3; [lia|done]].
      split; [lia|]. split; [lia|].
      intros i Hi. destruct (decide (i = b)) as [->|]; [done|]. apply H2. lia.
  Qed.
End bs.

(** ** Search among children *)
(** start offset of child [i] relative to its parent *)
Definition cstart (g : green) (i : nat) : N := blen (gctext (take i (kids g))).

Lemma cstart_0 g : cstart g 0 = 0%N.
Proof. done. Qed.
Lemma cstart_S g i c : gchildren g !! i = Some c -> cstart g (S i) = (cstart g i + blen (gtext c.2))%N.
Proof.
  intros H. unfold cstart.
  rewrite (take_S_r (kids g) i c.2) by (unfold kids; by rewrite lookup_map, H).
  rewrite gctext_app, blen_app. unfold gctext at 2. simpl. by rewrite app_nil_r.
Qed.
Lemma cstart_mono g i j : i <= j -> (cstart g i <= cstart g j)%N.
Proof.
  intros H. unfold cstart. replace j with (i + (j - i)) by lia.
  rewrite <- take_take_drop, gctext_app, blen_app. lia.
Qed.
Lemma cstart_end g : gis_node g = true -> cstart g (length (gchildren g)) = blen (gtext g).
Proof.
  intros H. unfold cstart. rewrite take_ge by (unfold kids; by rewrite length_map).
  by rewrite gtext_kids.
Qed.

Lemma rel_range_wf g i c :
  wfg g -> gchildren g !! i = Some c -> rel_range c = TR (cstart g i) (cstart g (S i)).
Proof.
  intros Hg Hc. destruct (wfg_child _ _ _ Hg Hc) as [Hw H1].
  unfold rel_range, range_at. rewrite (cstart_S _ _ _ Hc), wfg_glen by done.
  by rewrite H1.
Qed.

(** what child_at_range returns, exactly *)
Lemma child_at_range_spec g rel :
  wfg g -> range_ok rel ->
  match child_at_range g rel with
  | Some (i, off, c) =>
      gchildren g !! i = Some (off, c) /\
      (cstart g i <= rstart rel)%N /\ (rend rel <= cstart g (S i))%N /\
      (* among several candidates (only for an empty range on a boundary) it is
         the last one that ends there, or the very first child *)
      (forall j c', gchildren g !! j = Some c' -> i < j ->
         (cstart g j <= rstart rel)%N -> (rend rel <= cstart g (S j))%N -> (rend rel < cstart g (S j))%N) /\
      (rstart rel = rend rel -> i <> 0 -> (cstart g i < rstart rel)%N \/ cstart g (S i) = rstart rel)
  | None => forall i c, gchildren g !! i = Some c ->
      ~ ((cstart g i <= rstart rel)%N /\ (rend rel <= cstart g (S i))%N)
  end.
Proof.
  intros Hg Hok. unfold range_ok in Hok. unfold child_at_range.
  set (cs := gchildren g) in *.
  set (cmp := fun i => match cs !! i with Some it => range_ordering (rel_range it) rel | None => Gt end).
  assert (Hcmp : forall i, i < length cs ->
     cmp i = if (cstart g (S i) <=? rstart rel)%N then Lt
             else if (rend rel <=? cstart g i)%N then Gt else Eq).
  { intros i Hi. unfold cmp. destruct (cs !! i) as [c|] eqn:E; [|apply lookup_ge_None in E; lia].
    unfold range_ordering. by rewrite (rel_range_wf g i c Hg E). }
  assert (Hgt : forall i j, i < j < length cs -> cmp i = Gt -> cmp j = Gt).
  { intros i j Hij. rewrite !Hcmp by lia.
    pose proof (cstart_mono g (S i) j ltac:(lia)). pose proof (cstart_mono g i (S i) ltac:(lia)).
    pose proof (cstart_mono g j (S j) ltac:(lia)).
    repeat (case_match; try done); lia. }
  assert (Hlt : forall i j, i < j < length cs -> cmp j = Lt -> cmp i = Lt).
  { intros i j Hij. rewrite !Hcmp by lia.
    pose proof (cstart_mono g (S i) j ltac:(lia)). pose proof (cstart_mono g j (S j) ltac:(lia)).
    repeat (case_match; try done); lia. }
  pose proof (binary_search_by_spec cmp (length cs) Hgt Hlt) as Hbs.
  assert (Hmono : forall i j, i <= j -> (cstart g i <= cstart g j)%N) by (intros; by apply cstart_mono).
  destruct (binary_search_by (length cs) cmp) as [b|b].
  - destruct Hbs as [Hb Heq]. rewrite Hcmp in Heq by done.
    destruct (N.leb_spec (cstart g (S b)) (rstart rel)); [done|].
    destruct (N.leb_spec (rend rel) (cstart g b)); [done|].
    destruct (lookup_lt_is_Some_2 cs b Hb) as [[o c] Hc]. rewrite Hc.
    unfold contains_range. rewrite (rel_range_wf g b (o,c) Hg Hc). simpl.
    destruct (N.leb_spec (cstart g b) (rstart rel)); [|].
    + destruct (N.leb_spec (rend rel) (cstart g (S b))).
      * change (true && true) with true. cbv iota.
        split; [done|]. split; [done|]. split; [done|]. split.
        -- intros j c' Hj Hlt'. specialize (Hmono (S b) j ltac:(lia)). lia.
        -- intros Hemp _. left. lia.
      * change (true && false) with false. cbv iota. intros i d Hd.
        destruct (decide (i = b)) as [->|]; [lia|].
        destruct (decide (i < b)).
        { specialize (Hmono (S i) b ltac:(lia)). lia. }
        specialize (Hmono (S b) i ltac:(lia)). lia.
    + rewrite andb_false_l. intros i d Hd.
      destruct (decide (i = b)) as [->|]; [lia|].
      destruct (decide (i < b)).
      { specialize (Hmono (S i) b ltac:(lia)). lia. }
      specialize (Hmono (S b) i ltac:(lia)). lia.
  - destruct Hbs as (Hb&Hl&Hr).
    assert (Hl' : forall i, i < b -> (cstart g (S i) <= rstart rel)%N).
    { intros i Hi. specialize (Hl i Hi). rewrite Hcmp in Hl by lia. repeat (case_match; try done); lia. }
    assert (Hr' : forall i, b <= i < length cs -> (rend rel <= cstart g i)%N /\ (rstart rel < cstart g (S i))%N).
    { intros i Hi. specialize (Hr i Hi). rewrite Hcmp in Hr by lia. repeat (case_match; try done); lia. }
    destruct (cs !! (b - 1)) as [[o c]|] eqn:Hc.
    + unfold contains_range. rewrite (rel_range_wf g (b-1) (o,c) Hg Hc). simpl.
      assert (Hlen : b - 1 < length cs) by (by eapply lookup_lt_Some).
      destruct (decide (b = 0)) as [->|Hb0].
      * simpl (0 - 1) in *. specialize (Hr' 0 ltac:(lia)) as Hr0. rewrite cstart_0 in *.
        destruct (N.leb_spec 0 (rstart rel)); [|lia].
        destruct (N.leb_spec (rend rel) (cstart g 1)); [|].
        -- change (true && true) with true. cbv iota.
           split; [done|]. split; [rewrite cstart_0; done|]. split; [done|]. split; [|done].
           intros j c' Hj Hlt'. specialize (Hr' j). pose proof (lookup_lt_Some _ _ _ Hj). lia.
        -- lia.
      * specialize (Hl' (b - 1) ltac:(lia)) as Hl1. replace (S (b - 1)) with b in * by lia.
        pose proof (Hmono (b-1) b ltac:(lia)).
        destruct (N.leb_spec (cstart g (b - 1)) (rstart rel)); [|lia].
        destruct (N.leb_spec (rend rel) (cstart g b)).
        -- change (true && true) with true. cbv iota. replace (S (b - 1)) with b by lia.
           split; [done|]. split; [done|]. split; [done|].
           split; [|intros _ _; right; lia].
           intros j c' Hj Hlt'. specialize (Hr' j). pose proof (lookup_lt_Some _ _ _ Hj). lia.
        -- change (true && false) with false. cbv iota. intros i d Hd [Hi1 Hi2].
           pose proof (lookup_lt_Some _ _ _ Hd).
           destruct (decide (i < b)).
           { specialize (Hmono (S i) b ltac:(lia)). lia. }
           specialize (Hr' b ltac:(lia)). lia.
    + apply lookup_ge_None in Hc. intros i d Hd [Hi1 Hi2]. pose proof (lookup_lt_Some _ _ _ Hd). lia.
Qed.

(** ** Statements used by the property files *)
Lemma green_new_children pr a k els g :
  green_new pr a k els = Ok g -> gkind g = k /\ gis_node g = true /\ kids g = els /\ gaddr g = a.
Proof.
  unfold green_new. intros H. apply res_bind_ok in H as ([cs t]&H&H'). injection H' as <-.
  split; [done|]. split; [done|]. split; [|done]. unfold kids. simpl. revert cs t H. generalize 0%N.
  induction els as [|e els IH]; intros o cs t; simpl; [by intros [= <- _]|].
  intros H. apply res_bind_ok in H as (l&Hl&H). apply res_bind_ok in H as (o'&_&H).
  apply res_bind_ok in H as ([cs' t']&H'&H). injection H as <- <-. simpl. f_equal. by eapply IH.
Qed.
Lemma green_new_exact a k els :
  Forall wfg els ->
  match green_new Checked a k els with
  | Ok g => gkind g = k /\ gis_node g = true /\ kids g = els /\ (blen (gctext els) <= u32_max)%N
  | Err e => e = Panic /\ (u32_max < blen (gctext els))%N
  end.
Proof.
  intros H. destruct (N.le_gt_cases (blen (gctext els)) u32_max) as [Hb|Hb].
  - destruct (green_new Checked a k els) as [g|e] eqn:E.
    + by apply green_new_children in E as (?&?&?&_).
    + by rewrite green_new_fits in E.
  - by rewrite green_new_overflow.
Qed.
Lemma splice_exact a g lo hi repl :
  wfg g -> Forall wfg repl ->
  let s := bound_start lo in let e := bound_end (length (kids g)) hi in
  let new := take s (kids g) ++ repl ++ drop e (kids g) in
  match green_splice_children Checked a g lo hi repl with
  | Ok g' => s <= e <= length (kids g) /\ gkind g' = gkind g /\ gis_node g' = true /\ kids g' = new
  | Err er => er = Panic /\ (~ (s <= e <= length (kids g)) \/ (u32_max < blen (gctext new))%N)
  end.
Proof.
  intros Hg Hr s e new. unfold green_splice_children. fold (kids g).
  destruct (decide (s <= e <= length (kids g))) as [Hin|Hin].
  - rewrite vec_splice_ok by done. simpl. fold s e new.
    assert (HF : Forall wfg new) by (apply Forall_take_drop; [by apply wfg_kids|done]).
    pose proof (green_new_exact a (gkind g) new HF) as H. fold s e new in H.
    destruct (green_new Checked a (gkind g) new) as [g'|er].
    + destruct H as (?&?&?&_). done.
    + destruct H as [-> ?]. by auto.
  - rewrite vec_splice_panic by done. simpl. by auto.
Qed.
Lemma replace_exact a g i new :
  wfg g -> wfg new ->
  match green_replace_child Checked a g i new with
  | Ok g' => gkind g' = gkind g /\ gis_node g' = true /\ kids g' = <[i:=new]> (kids g)
  | Err er => er = Panic /\ (u32_max < blen (gctext (<[i:=new]> (kids g))))%N
  end.
Proof.
  intros Hg Hn. unfold green_replace_child. rewrite replace_nth_insert. fold (kids g).
  assert (HF : Forall wfg (<[i:=new]> (kids g))) by (apply Forall_insert; [by apply wfg_kids|done]).
  pose proof (green_new_exact a (gkind g) _ HF) as H. revert H.
  destruct (green_new Checked a (gkind g) (<[i:=new]> (kids g))) as [g'|er]; [by intros (?&?&?&_)|done].
Qed.
Lemma erase_determined g1 g2 :
  gkind g1 = gkind g2 -> gis_node g1 = true -> gis_node g2 = true -> kids g1 = kids g2 -> erase g1 = erase g2.
Proof.
  destruct g1, g2; try done. simpl. unfold kids. simpl. intros -> _ _ H. f_equal.
  apply (f_equal (map erase)) in H. by rewrite !map_map in H.
Qed.
Lemma blen_replicate n c : blen (replicate n c) = (N.of_nat n * width c)%N.
Proof. induction n as [|n IH]; simpl; [lia|]. rewrite IH. lia. Qed.
