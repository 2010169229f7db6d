(** * Facts about green trees in release builds (proofs only). *)
From Verif Require Export CursorFacts WrapGreen.
From Verif Require Import BuilderFacts.

Lemma m32_lt n : (m32 n <= u32_max)%N.
Proof. unfold m32, u32_max. pose proof (N.mod_upper_bound n 4294967296 ltac:(done)). lia. Qed.
Lemma m32_add a b : m32 (m32 a + b) = m32 (a + b).
Proof. unfold m32. by rewrite N.add_mod_idemp_l by done. Qed.
Lemma m32_add_r a b : m32 (a + m32 b) = m32 (a + b).
Proof. unfold m32. by rewrite N.add_mod_idemp_r by done. Qed.
Lemma m32_small n : (n <= 4294967295)%N -> m32 n = n.
Proof. intros. unfold m32. apply N.mod_small. lia. Qed.
Lemma add32_rel a b : add32 Wrapping a b = Ok (m32 (a + b)).
Proof.
  unfold add32. destruct (N.leb_spec (a + b) u32_max) as [H|H].
  - by rewrite m32_small.
  - done.
Qed.

(** the data stored in a node *)
(** proof device, no counterpart in the code *)
Fixpoint moffsets (o : N) (els : list green) : list (N * green) :=
  match els with
  | [] => []
  | el :: els' => (m32 o, el) :: moffsets (o + blen (gtext el)) els'
  end.
Lemma moffsets_snd o els : map snd (moffsets o els) = els.
Proof. revert o. induction els as [|e els IH]; intros o; simpl; [done|]. by rewrite IH. Qed.
Lemma moffsets_lookup o els i c :
  moffsets o els !! i = Some c -> c.1 = m32 (o + blen (gctext (take i els))) /\ els !! i = Some c.2.
Proof.
  revert o i. induction els as [|e els IH]; intros o i; simpl; [by rewrite lookup_nil|].
  destruct i as [|i]; simpl.
  - intros [= <-]. unfold gctext. simpl. by rewrite N.add_0_r.
  - intros H. destruct (IH _ _ H) as [-> ->]. split; [|done]. unfold gctext. simpl. rewrite blen_app. f_equal. lia.
Qed.

(** proof device, no counterpart in the code *)
Inductive wfw : green -> Prop :=
| wfw_tok a k s : wfw (GTok a k s)
| wfw_node a k els : Forall wfw els -> toks_fit (map erase els) -> wfw (GNode a k (m32 (blen (gctext els))) (moffsets 0 els)).

Lemma wfw_text_len g : wfw g ->
  green_text_len g =
    if gis_node g then Ok (m32 (blen (gtext g)))
    else if (blen (gtext g) <=? 4294967295)%N then Ok (blen (gtext g)) else Err Panic.
Proof. intros [a k s|a k els _ _]; [done|]. rewrite gtext_node, moffsets_snd. done. Qed.
Lemma wfw_text_len_fits g : wfw g -> (is_token (erase g) = true -> (blen (gtext g) <= 4294967295)%N) ->
  green_text_len g = Ok (m32 (blen (gtext g))).
Proof.
  intros Hw Ht. rewrite wfw_text_len by done. destruct g as [a k tl cs|a k s]; [done|]. simpl.
  specialize (Ht eq_refl). rewrite m32_small by done. unfold gtext in *. simpl in *.
  by rewrite (proj2 (N.leb_le _ _) Ht).
Qed.
Lemma assign_offsets_rel o els :
  Forall wfw els -> toks_fit (map erase els) ->
  assign_offsets Wrapping (m32 o) els = Ok (moffsets o els, m32 (o + blen (gctext els))).
Proof.
  intros H Ht. revert o. induction H as [|e els He Hels IH]; intros o; simpl.
  - unfold gctext. simpl. by rewrite N.add_0_r.
  - inversion Ht as [|?? Ht1 Ht2]; subst. rewrite wfw_text_len_fits by done. simpl.
    rewrite add32_rel, m32_add, m32_add_r. simpl. rewrite IH by done. simpl.
    do 3 f_equal. unfold gctext. simpl. rewrite blen_app. lia.
Qed.
Lemma assign_offsets_rel_panic o els :
  Forall wfw els -> ~ toks_fit (map erase els) -> assign_offsets Wrapping o els = Err Panic.
Proof.
  intros H Ht. revert o. induction H as [|e els He Hels IH]; intros o; simpl.
  - destruct Ht. constructor.
  - destruct (decide (is_token (erase e) = true /\ (4294967295 < blen (gtext e))%N)) as [[H1 H2]|Hn].
    + rewrite wfw_text_len by done. destruct e as [|a k s]; [done|]. simpl.
      by rewrite (proj2 (N.leb_gt _ _) H2).
    + assert (Hf : is_token (erase e) = true -> (blen (gtext e) <= 4294967295)%N).
      { intros Hi. destruct (N.le_gt_cases (blen (gtext e)) 4294967295); [done|]. by destruct Hn. }
      rewrite wfw_text_len_fits by done. simpl. rewrite add32_rel. simpl.
      rewrite IH; [done|]. intros Hk. apply Ht. simpl. by constructor.
Qed.
Lemma green_new_rel a k els :
  Forall wfw els ->
  (toks_fit (map erase els) /\ green_new Wrapping a k els = Ok (GNode a k (m32 (blen (gctext els))) (moffsets 0 els))) \/
  (~ toks_fit (map erase els) /\ green_new Wrapping a k els = Err Panic).
Proof.
  intros H. destruct (decide (toks_fit (map erase els))) as [Ht|Ht]; [left|right]; (split; [done|]); unfold green_new.
  - pose proof (assign_offsets_rel 0 els H Ht) as E. change (m32 0) with 0%N in E. rewrite E. done.
  - by rewrite assign_offsets_rel_panic.
Qed.
Lemma green_new_rel_wf a k els g : Forall wfw els -> green_new Wrapping a k els = Ok g -> wfw g.
Proof.
  intros H E. destruct (green_new_rel a k els H) as [[Ht E']|[_ E']]; rewrite E' in E; [|done].
  injection E as <-. by constructor.
Qed.
Lemma wfw_kids g : wfw g -> Forall wfw (kids g).
Proof. intros [a k s|a k els H Ht]; unfold kids; simpl; [done|]. by rewrite moffsets_snd. Qed.
Lemma built_rel_wfw g : built_rel g -> wfw g.
Proof.
  revert g. fix IH 2. intros g H. destruct H as [a k s|a k els g H E|a g lo hi repl g' H Hr E|a g i new g' H Hn E|g c H Hc].
  - constructor.
  - eapply green_new_rel_wf; [|exact E]. clear E. induction H as [|x l Hx Hl IHl]; constructor; [by apply IH|done].
  - unfold green_splice_children in E. apply res_bind_ok in E as (cs&Hs&E).
    eapply green_new_rel_wf; [|exact E]. unfold vec_splice in Hs. destruct (_ && _); [|done]. injection Hs as <-.
    pose proof (wfw_kids _ (IH _ H)) as Hk. unfold kids in Hk.
    apply Forall_app. split; [by apply Forall_take|]. apply Forall_app. split; [|by apply Forall_drop].
    clear E. induction Hr as [|x l Hx Hl IHl]; constructor; [by apply IH|done].
  - eapply green_new_rel_wf; [|exact E]. pose proof (wfw_kids _ (IH _ H)) as Hk. pose proof (IH _ Hn) as Hn'.
    unfold kids in Hk. rewrite Forall_forall. intros x Hx. apply CacheFacts.elem_of_map in Hx as ([j y]&->&Hj).
    destruct (j =? i); [done|]. rewrite Forall_forall in Hk. apply Hk.
    apply elem_of_list_lookup in Hj as [n Hj]. rewrite lookup_enumerate in Hj.
    apply fmap_Some in Hj as (z&Hz&E'). injection E' as -> ->. apply elem_of_list_lookup. by exists n.
  - pose proof (wfw_kids _ (IH _ H)) as Hk. rewrite Forall_forall in Hk. apply Hk.
    unfold kids. apply CacheFacts.elem_of_map. by exists c.
Qed.

Lemma wfw_lookup g i c : wfw g -> gchildren g !! i = Some c ->
  wfw c.2 /\ c.1 = m32 (blen (gctext (take i (kids g)))).
Proof.
  intros H Hc. split.
  - apply wfw_kids in H. rewrite Forall_forall in H. apply H. unfold kids. apply CacheFacts.elem_of_map. exists c.
    split; [done|]. by eapply elem_of_list_lookup_2.
  - destruct H as [a k s|a k els H Ht]; simpl in Hc; [by rewrite lookup_nil in Hc|].
    unfold kids. simpl. rewrite moffsets_snd. by apply moffsets_lookup in Hc as [-> _].
Qed.
Lemma wfw_gsub g p c : wfw g -> gsub g p = Some c -> wfw c.
Proof.
  revert g. induction p as [|i p IH]; intros g Hg; simpl; [by intros [= ->]|].
  destruct (gchildren g !! i) as [d|] eqn:E; [|done]. apply IH. by eapply wfw_lookup.
Qed.

(** ** Equality and hashing *)
Lemma erase_green_eqb_rel g1 g2 : wfw g1 -> wfw g2 -> erase g1 = erase g2 -> green_eqb g1 g2 = true.
Proof.
  revert g2. induction g1 as [a1 k1 tl1 cs1 IH|a1 k1 s1] using green_ind'; intros g2 Hw1 Hw2 Heq.
  - inversion Hw1 as [|? ? els1 HF1 Ht1]; subst. destruct Hw2 as [|a2 k2 els2 HF2 Ht2]; [done|].
    simpl in Heq. injection Heq as -> He. rewrite green_eqb_node.
    change (map (fun c => erase c.2) ?l) with (map (fun c : N * green => erase (snd c)) l) in He.
    rewrite <- !(map_map snd erase), !moffsets_snd in He.
    assert (Hg : gctext els1 = gctext els2) by (by rewrite !gctext_ctext, He).
    rewrite Hg, !N.eqb_refl. rewrite !andb_true_l.
    assert (Hl : length els1 = length els2) by (apply (f_equal length) in He; by rewrite !length_map in He).
    assert (Hlo : forall o l, length (moffsets o l) = length l).
    { intros o l. rewrite <- (length_map snd). by rewrite moffsets_snd. }
    rewrite !Hlo, Hl, Nat.eqb_refl, andb_true_l. clear Hg Hl Ht1 Ht2 Hlo Hw1. revert IH. generalize 0%N as o.
    revert els2 HF2 He. induction HF1 as [|c els1 Hc Hcs IH']; intros [|d els2] HF2 He o IH; simpl in *; try done.
    injection He as He1 He2. inversion HF2; subst. inversion IH as [|? ? I1 I2]; subst.
    rewrite N.eqb_refl, I1 by done. unfold gtext at 2. rewrite <- He1. by apply IH'.
  - destruct g2 as [|a2 k2 s2]; [done|].
    simpl in Heq. injection Heq as -> ->. simpl. rewrite !N.eqb_refl. by rewrite bool_decide_eq_true_2.
Qed.
Lemma green_hash_feed_rel g1 g2 :
  wfw g1 -> wfw g2 -> erase g1 = erase g2 -> green_hash_feed g1 = green_hash_feed g2.
Proof.
  revert g2. induction g1 as [a1 k1 tl1 cs1 IH|a1 k1 s1] using green_ind'; intros g2 Hw1 Hw2 Heq.
  - inversion Hw1 as [|? ? els1 HF1 Ht1]; subst. destruct Hw2 as [|a2 k2 els2 HF2 Ht2]; [done|].
    simpl in Heq. injection Heq as -> He. cbn [green_hash_feed].
    rewrite <- !(map_map snd erase), !moffsets_snd in He.
    assert (Hg : gctext els1 = gctext els2) by (by rewrite !gctext_ctext, He).
    assert (Hl : length els1 = length els2) by (apply (f_equal length) in He; by rewrite !length_map in He).
    assert (Hlo : forall o l, length (moffsets o l) = length l).
    { intros o l. rewrite <- (length_map snd). by rewrite moffsets_snd. }
    rewrite Hg, !Hlo, Hl. do 4 f_equal. clear Hg Hl Ht1 Ht2 Hlo Hw1. f_equal. revert IH.
    set (tag := fun x => if gis_node x then 0%N else 1%N).
    change (fun c : N * green => (if gis_node c.2 then 0%N else 1%N) :: c.1 :: green_hash_feed c.2)
      with (fun c : N * green => tag c.2 :: c.1 :: green_hash_feed c.2).
    assert (Htag : forall x y, erase x = erase y -> tag x = tag y).
    { intros x y E. unfold tag. by rewrite <- (erase_is_node x), <- (erase_is_node y), E. }
    clearbody tag. generalize 0%N as o.
    revert els2 HF2 He. induction HF1 as [|c els1 Hc Hcs IH']; intros [|d els2] HF2 He o IH; simpl in *; try done.
    injection He as He1 He2. inversion HF2; subst. inversion IH as [|? ? I1 I2]; subst. simpl in I1.
    rewrite (I1 d), (Htag _ _ He1) by done. f_equal.
    unfold gtext at 1 2. rewrite He1. apply IH'; [done..|].
    unfold gtext in I2. by rewrite He1 in I2.
  - destruct g2 as [|a2 k2 s2]; [done|]. simpl in Heq. injection Heq as -> ->. done.
Qed.

(** ** Builders *)
(** proof device, no counterpart in the code *)
Definition rel_elems (b : builder) : Prop :=
  forall e, e ∈ nodes (bcache b) \/ e ∈ tokens (bcache b) \/ e ∈ children b -> built_rel e.2.
Lemma rel_insert env t tab h g e : (forall e, e ∈ tab -> built_rel e.2) -> built_rel g ->
  e ∈ table_insert env t tab h g -> built_rel e.2.
Proof.
  intros Ht Hg. unfold table_insert. intros [->|He]%elem_of_cons; [done|].
  destruct (grows env t tab); [|by apply Ht]. apply CacheFacts.elem_of_map in He as (x&->&Hx). simpl. by apply Ht.
Qed.
Lemma cache_node_elem env pr c k pend n :
  cenv_ok env ->
  match cache_node env pr c k pend n with
  | Ok (h, g, pend', c') =>
      pend' = take n pend /\ tokens c' = tokens c /\ ((exists h', (h', g) ∈ nodes c) \/ exists a, green_new pr a k (map snd (drop n pend)) = Ok g) /\ (nodes c' = nodes c \/ (exists t h', nodes c' = table_insert env t (nodes c) h' g))
  | Err e => length pend < n \/ exists a, green_new pr a k (map snd (drop n pend)) = Err e
  end.
Proof.
  intros [Hp _]. unfold cache_node. destruct (Nat.ltb_spec (length pend) n); [by left|].
  set (a := alloc _ _ _).
  assert (Hunc : match (node ← green_new pr a k (map snd (drop n pend));
            Ok (0%N, node, take n pend, {| nodes := nodes c; tokens := tokens c; clock := S (clock c) |})) with
     | Ok (h, g, pend', c') =>
        pend' = take n pend /\ tokens c' = tokens c /\
        ((exists h', (h', g) ∈ nodes c) \/ exists a, green_new pr a k (map snd (drop n pend)) = Ok g) /\
        (nodes c' = nodes c \/ (exists t h', nodes c' = table_insert env t (nodes c) h' g))
     | Err e => length pend < n \/ exists a, green_new pr a k (map snd (drop n pend)) = Err e
     end).
  { destruct (green_new pr a k (map snd (drop n pend))) eqn:E; simpl; naive_solver. }
  destruct (3 <? _); [exact Hunc|]. destruct (hash_children _ _ _) as [h|]; [|exact Hunc].
  specialize (Hp (clock c) (nodes c) (hfin env h) (node_matches k (drop n pend))).
  destruct (probe _ _ _ _ _) as [g|].
  - naive_solver.
  - destruct (green_new pr a k (map snd (drop n pend))) eqn:E; simpl; naive_solver.
Qed.
Lemma rel_elems_op env b o b' : cenv_ok env -> rel_elems b -> b_op env Wrapping b o = Ok b' -> rel_elems b'.
Proof.
  intros Henv Hi. destruct o as [k s|k| |cp k]; simpl; intros E.
  - unfold b_token, cache_token in E. pose proof (proj1 Henv (clock (bcache b)) (tokens (bcache b)) (token_hash env k s) (token_matches k s)) as Hp.
    destruct (probe _ _ _ _ _) as [g|]; injection E as <-; intros e He; simpl in He.
    + destruct Hp as [[h' Hp] _]. rewrite elem_of_app, elem_of_list_singleton in He.
      destruct He as [He|[He|[He| ->]]]; [naive_solver..|]. simpl. apply (Hi (h', g)). naive_solver.
    + rewrite elem_of_app, elem_of_list_singleton in He.
      destruct He as [He|[He|[He| ->]]]; [naive_solver| |naive_solver|simpl; constructor].
      eapply rel_insert; [| |exact He]; [naive_solver|constructor].
  - injection E as <-. exact Hi.
  - unfold b_finish_node in E. destruct (parents b) as [|[k n] ps]; [done|].
    pose proof (cache_node_elem env Wrapping (bcache b) k (children b) n Henv) as Hc.
    destruct (cache_node _ _ _ _ _ _) as [[[[h g] cs] c']|]; [|done]. simpl in E. injection E as <-.
    destruct Hc as (->&Ht&Hg&Hn).
    assert (Hbg : built_rel g).
    { destruct Hg as [[h' Hg]|[a Hg]]; [apply (Hi (h', g)); by left|].
      eapply br_node; [|exact Hg]. rewrite Forall_forall. intros x Hx.
      apply CacheFacts.elem_of_map in Hx as (y&->&Hy). apply Hi. right. right. by eapply elem_of_drop. }
    intros e He; simpl in He. rewrite Ht, elem_of_app, elem_of_list_singleton in He.
    destruct He as [He|[He|[He| ->]]]; [|naive_solver|apply Hi; right; right; by eapply elem_of_take'|done].
    destruct Hn as [Hn|(t&h'&Hn)]; rewrite Hn in He; [apply Hi; by left|].
    eapply rel_insert; [| |exact He]; [naive_solver|done].
  - unfold b_start_node_at in E. apply res_bind_ok in E as (?&_&E). apply res_bind_ok in E as (?&_&E).
    injection E as <-. exact Hi.
Qed.
Lemma rel_elems_later env b b' : cenv_ok env -> b_later env Wrapping b b' -> rel_elems b -> rel_elems b'.
Proof.
  intros Henv H. induction H as [|b o b' b'' Ho _ IH|b b'' _ IH]; intros Hi; [done| |].
  - apply IH. by eapply rel_elems_op.
  - apply IH. intros e [He|[He|He]]; simpl in He; [apply Hi; eauto..|by apply elem_of_nil in He].
Qed.
Lemma rel_elems_cache env c : cenv_ok env -> cache_reachable env Wrapping c -> rel_elems (builder_new c).
Proof.
  intros Henv H. eapply rel_elems_later; [done|exact H|]. intros e [He|[He|He]]; simpl in He; by apply elem_of_nil in He.
Qed.
Lemma b_op_rel env b s o :
  cenv_ok env -> binv env Wrapping b -> rel_elems b -> brel b s ->
  match b_op env Wrapping b o with
  | Ok b' => exists s', sbr_op s o = Some s' /\ brel b' s' /\ binv env Wrapping b' /\ rel_elems b'
  | Err e => e = Panic /\ sbr_op s o = None
  end.
Proof.
  intros Henv Hi Hr HR. pose proof (b_op_step env Wrapping b s o Henv Hi HR) as Hst.
  destruct (b_op env Wrapping b o) as [b'|e] eqn:E.
  - destruct Hst as (s'&Hs&HR'&Hi'&_). pose proof (rel_elems_op _ _ _ _ Henv Hr E) as Hr'.
    exists s'. split; [|done]. destruct o as [k t|k| |cp k]; try exact Hs. simpl.
    rewrite decide_True; [exact Hs|]. simpl in Hs.
    destruct (outer s) as [|[k before] out]; [done|]. injection Hs as <-.
    destruct HR' as [_ HC]. unfold sb_pending in HC. simpl in HC. rewrite app_assoc in HC.
    unfold b_pending in HC. assert (HC' := HC).
    apply (f_equal last) in HC'. rewrite last_snoc in HC'.
    assert (Hl : exists e, e ∈ children b' /\ erase e.2 = Node k (current s)).
    { revert HC'. clear. rewrite <- (rev_involutive (children b')). generalize (rev (children b')). intros [|e l]; [done|].
      simpl. rewrite map_app. simpl. rewrite last_snoc. intros [= H]. exists e. split; [|done].
      apply elem_of_app. right. by apply elem_of_list_singleton. }
    destruct Hl as (e&He&Hee). assert (Hw : wfw e.2) by (apply built_rel_wfw, Hr'; eauto).
    destruct Hw as [|a k' els HF Ht]; simpl in Hee; [done|]. injection Hee as -> <-.
    rewrite <- (map_map snd erase), moffsets_snd. done.
  - destruct Hst as [-> Hst]. split; [done|].
    destruct o as [k t|k| |cp k]; simpl in E; [naive_solver..| |].
    + simpl. destruct (decide (toks_fit (current s))) as [Ht|]; [|done].
      destruct HR as [HP HC]. unfold b_finish_node in E. destruct (outer s) as [|[k before] out] eqn:Eo; [done|]. exfalso.
      simpl in HP. rewrite HP in E. set (n := length (before ++ concat (map snd out))) in *.
      pose proof (cache_node_elem env Wrapping (bcache b) k (children b) n Henv) as Hc.
      destruct (cache_node _ _ _ _ _ _) as [[[[h g] cs] c']|e']; [done|].
      assert (Hpre : length (concat (rev (map snd out)) ++ before) = n).
      { unfold n. rewrite !app_length, length_concat_rev. lia. }
      assert (HC' : b_pending b = (concat (rev (map snd out)) ++ before) ++ current s).
      { rewrite HC. unfold sb_pending. rewrite Eo. simpl. rewrite concat_app. simpl. by rewrite app_nil_r. }
      assert (Hdrop : map erase (map snd (drop n (children b))) = current s).
      { rewrite <- !drop_map, map_map. fold (b_pending b). rewrite HC'. rewrite drop_app_alt by done. done. }
      destruct Hc as [Hc|[a Hc]].
      * rewrite <- b_pending_length, HC', app_length, Hpre in Hc. lia.
      * assert (HF : Forall wfw (map snd (drop n (children b)))).
        { rewrite Forall_forall. intros x Hx. apply CacheFacts.elem_of_map in Hx as (y&->&Hy).
          apply built_rel_wfw, Hr. right. right. by eapply elem_of_drop. }
        destruct (green_new_rel a k _ HF) as [[_ E']|[Ht' _]]; [by rewrite E' in Hc|]. by rewrite Hdrop in Ht'.
    + destruct Hst as [Hst|Hst]; [exact Hst|done].
Qed.
Lemma b_run_rel env b s ops :
  cenv_ok env -> binv env Wrapping b -> rel_elems b -> brel b s ->
  match b_run env Wrapping b ops with
  | Ok b' => exists s', sbr_run s ops = Some s' /\ brel b' s' /\ binv env Wrapping b' /\ rel_elems b'
  | Err e => e = Panic /\ sbr_run s ops = None
  end.
Proof.
  intros Henv. revert b s. induction ops as [|o ops IH]; intros b s Hi Hr HR; simpl; [by exists s|].
  pose proof (b_op_rel env b s o Henv Hi Hr HR) as Hst. destruct (b_op env Wrapping b o) as [b'|e]; simpl.
  - destruct Hst as (s'&->&HR'&Hi'&Hr'). by apply IH.
  - by destruct Hst as [-> ->].
Qed.
Lemma b_build_rel env c ops :
  cenv_ok env -> cache_reachable env Wrapping c ->
  erase <$> b_build env Wrapping c ops = spec_build_rel ops /\
  (forall g, b_build env Wrapping c ops = Ok g -> built_rel g).
Proof.
  intros Henv Hc. pose proof (b_run_rel env (builder_new c) sb_new ops Henv
    (b_reachable_inv _ _ _ Henv Hc) (rel_elems_cache _ _ Henv Hc) (brel_new c)) as H.
  unfold spec_build_rel, b_build. destruct (b_run env Wrapping (builder_new c) ops) as [b|e].
  - destruct H as (s&->&HR&_&Hr). simpl. split; [by apply b_finish_erase|].
    intros g Hg. unfold b_finish in Hg. destruct (children b) as [|[h x] [|y l]] eqn:E; [done| |done].
    destruct (gis_node x); [|done]. injection Hg as <-. apply (Hr (h, x)). rewrite E. right. right. left.
  - by destruct H as [-> ->].
Qed.

(** ** Offsets *)
Lemma r_descend_spec g p c q :
  wfw g -> gsub g q = Some (c_green c) -> c_offset c = m32 (blen (tbefore (erase g) q)) ->
  (forall n, (n <= u32_max)%N -> r_offset_mut c n = Ok (m32 (n + blen (tbefore (erase g) q)))) ->
  match tsub (erase g) (q ++ p) with
  | Some t => exists d, r_descend c p = Ok (Some d) /\ gsub g (q ++ p) = Some (c_green d) /\
      c_offset d = m32 (blen (tbefore (erase g) (q ++ p))) /\
      (forall n, (n <= u32_max)%N -> r_offset_mut d n = Ok (m32 (n + blen (tbefore (erase g) (q ++ p)))))
  | None => r_descend c p = Ok None
  end.
Proof.
  intros Hw. revert c q. induction p as [|i p IH]; intros c q Hs Ho Hm.
  - rewrite app_nil_r, erase_gsub, Hs. simpl. by exists c.
  - simpl. unfold r_child. destruct (gchildren (c_green c) !! i) as [x|] eqn:Hx.
    + rewrite add32_rel. simpl. replace (q ++ i :: p) with ((q ++ [i]) ++ p) by (by rewrite <- app_assoc).
      pose proof (wfw_lookup _ _ _ (wfw_gsub _ _ _ Hw Hs) Hx) as [_ Hxo].
      assert (Ht : tsub (erase g) q = Some (erase (c_green c))) by (by rewrite erase_gsub, Hs).
      assert (Hb : blen (tbefore (erase g) (q ++ [i])) =
                   (blen (tbefore (erase g) q) + blen (gctext (take i (kids (c_green c)))))%N).
      { rewrite (tbefore_snoc _ _ _ _ Ht), blen_app, gctext_ctext, erase_children, take_map. done. }
      apply IH; simpl.
      * by rewrite gsub_snoc, Hs, Hx.
      * by rewrite Ho, Hxo, m32_add, m32_add_r, Hb.
      * intros n Hn. rewrite Hx, add32_rel. simpl. rewrite Hm by apply m32_lt. f_equal.
        rewrite m32_add, Hb, Hxo.
        replace (n + m32 (blen (gctext (take i (kids (c_green c))))) + blen (tbefore (erase g) q))%N
          with (n + blen (tbefore (erase g) q) + m32 (blen (gctext (take i (kids (c_green c))))))%N by lia.
        rewrite m32_add_r. f_equal. lia.
    + assert (Hn : tsub (erase g) (q ++ i :: p) = None); [|by rewrite Hn].
      rewrite erase_gsub, gsub_app, Hs. simpl. by rewrite Hx.
Qed.
Lemma r_at g p : wfw g ->
  match tsub (erase g) p with
  | Some t => exists d, r_descend (CRoot g) p = Ok (Some d) /\ gsub g p = Some (c_green d) /\
      c_offset d = m32 (blen (tbefore (erase g) p)) /\ r_offset_mut d 0 = Ok (c_offset d)
  | None => r_descend (CRoot g) p = Ok None
  end.
Proof.
  intros Hw. pose proof (r_descend_spec g p (CRoot g) [] Hw eq_refl eq_refl) as H. simpl in H.
  assert (Hm : forall n, (n <= u32_max)%N -> Ok n = Ok (m32 (n + 0))).
  { intros n Hn. by rewrite N.add_0_r, m32_small. }
  specialize (H Hm). destruct (tsub (erase g) p); [|done].
  destruct H as (d&H1&H2&H3&H4). exists d. repeat (split; [done|]). rewrite H4, H3 by done. done.
Qed.
