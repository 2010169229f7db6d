(** * Specifications of the sorted lists of children, src/sll.rs (proofs only) *)
From Verif Require Export HeapInv.

Lemma jn_eq m x o : is_Some (m !! x) -> jn m x = o -> m !! x = Some o.
Proof. unfold jn. intros [y ->]. simpl. by intros ->. Qed.
Lemma P_pn_some h x : is_Some (pc (P h) !! x) -> is_Some (pn (P h) !! x).
Proof. intros [c (?&?&?&?&?&?&?&?)%P_some]. eauto. Qed.
Lemma P_pv_some h x : is_Some (pc (P h) !! x) -> is_Some (pv (P h) !! x).
Proof. intros [c (?&?&?&?&?&?&?&?)%P_some]. eauto. Qed.
Lemma P_pf_some h x : is_Some (pc (P h) !! x) -> is_Some (pf (P h) !! x).
Proof. intros [c (?&?&?&?&?&?&?&?)%P_some]. eauto. Qed.
Lemma P_pr_some h x : is_Some (pc (P h) !! x) -> is_Some (pr (P h) !! x).
Proof. intros [c (?&?&?&?&?&?&?&?)%P_some]. eauto. Qed.

Lemma wp_unlink p e l1 l2 (Q : unit -> heap -> Prop) h :
  is_Some (pc (P h) !! p) -> (forall x, x ∈ l1 ++ e :: l2 -> is_Some (pc (P h) !! x)) ->
  pf (P h) !! p = Some (head (l1 ++ e :: l2)) ->
  circ (jn (pn (P h))) (jn (pv (P h))) (l1 ++ e :: l2) -> NoDup (l1 ++ e :: l2) ->
  (forall h' n' q',
     P h' = PM (pc (P h)) (pr (P h)) (<[p:=head (l1 ++ l2)]> (pf (P h))) n' q' (po (P h)) (pk (P h)) ->
     circ (jn n') (jn q') (l1 ++ l2) -> n' !! e = Some (Some e) -> q' !! e = Some (Some e) ->
     (forall x, x ∉ l1 ++ e :: l2 -> n' !! x = pn (P h) !! x /\ q' !! x = pv (P h) !! x) -> Q () h') ->
  wp (h_unlink p e) Q h.
Proof.
  intros Hp Hl Hf Hc Hnd HQ. unfold h_unlink.
  pose proof (circ_succ _ _ _ _ _ Hc) as [Hs1 Hs2]. pose proof (circ_pred _ _ _ _ _ Hc) as [Hq1 Hq2].
  set (nx := succ_of l1 e l2) in *. set (pr_ := pred_of l1 e l2) in *.
  assert (Hine : e ∈ l1 ++ e :: l2) by set_solver.
  assert (Hinn : nx ∈ l1 ++ e :: l2) by apply succ_in. assert (Hinp : pr_ ∈ l1 ++ e :: l2) by apply pred_in.
  pose proof (Hl _ Hine) as He. pose proof (Hl _ Hinn) as Hnx. pose proof (Hl _ Hinp) as Hpr.
  pose proof (jn_eq _ _ _ (P_pn_some _ _ He) Hs1) as Es1. pose proof (jn_eq _ _ _ (P_pv_some _ _ Hnx) Hs2) as Es2.
  pose proof (jn_eq _ _ _ (P_pv_some _ _ He) Hq1) as Eq1. pose proof (jn_eq _ _ _ (P_pn_some _ _ Hpr) Hq2) as Eq2.
  destruct Hp as [cp Hp], He as [ce He], Hnx as [cn Hnx], Hpr as [cq Hpr].
  apply wp_bind. eapply wp_get; [exact Hp|]. intros hd _ _ Hfst _ _.
  apply wp_bind, wp_assert.
  { apply bool_decide_eq_true. rewrite Hfst in Hf. injection Hf as ->. destruct l1; simpl; eauto. }
  apply wp_bind. eapply wp_get; [exact He|]. intros ne _ _ _ Hnn Hnp.
  apply wp_bind. eapply wp_set_prev; [eauto|]. intros h1 E1.
  apply wp_bind. eapply wp_set_next; [rewrite E1; eauto|]. intros h2 E2. rewrite E1 in E2. psimp E2.
  apply wp_bind. eapply wp_ptr; [rewrite Hnp in Eq1; by injection Eq1|].
  apply wp_bind. eapply wp_ptr; [rewrite Hnn in Es1; by injection Es1|].
  apply wp_bind. eapply wp_get; [rewrite E2; exact Hpr|]. intros np _ _ _ Hn1 _. rewrite E2 in Hn1. psimp Hn1.
  apply wp_bind, wp_assert.
  { apply bool_decide_eq_true. destruct (decide (e = pr_)) as [E|E].
    - rewrite <- E, lookup_insert in Hn1. by injection Hn1.
    - rewrite lookup_insert_ne, Eq2 in Hn1 by done. by injection Hn1. }
  apply wp_bind. eapply wp_get; [rewrite E2; exact Hnx|]. intros nn _ _ _ _ Hn2. rewrite E2 in Hn2. psimp Hn2.
  apply wp_bind, wp_assert.
  { apply bool_decide_eq_true. destruct (decide (e = nx)) as [E|E].
    - rewrite <- E, lookup_insert in Hn2. by injection Hn2.
    - rewrite lookup_insert_ne, Es2 in Hn2 by done. by injection Hn2. }
  apply wp_bind. eapply wp_set_next; [rewrite E2; eauto|]. intros h3 E3. rewrite E2 in E3. psimp E3.
  apply wp_bind. eapply wp_set_prev; [rewrite E3; eauto|]. intros h4 E4. rewrite E3 in E4. psimp E4.
  apply wp_bind. eapply wp_get; [rewrite E4; exact Hp|]. intros hd' _ _ Hfst' _ _. rewrite E4 in Hfst'. psimp Hfst'.
  assert (n_first hd' = head (l1 ++ e :: l2)) as -> by congruence.
  set (n' := <[pr_:=Some nx]> (<[e:=Some e]> (pn (P h)))) in *.
  set (q' := <[nx:=Some pr_]> (<[e:=Some e]> (pv (P h)))) in *.
  assert (Hself : nx = e <-> pr_ = e).
  { unfold nx, pr_. rewrite succ_self by done. unfold pred_of. split.
    - by intros [-> ->]%app_nil.
    - destruct (last (l2 ++ l1)) as [z|] eqn:El; simpl.
      + intros ->. apply last_Some in El as [l' El]. exfalso.
        assert (e ∈ l2 ++ l1) as Hin by (rewrite El; clear; set_solver).
        apply NoDup_app in Hnd as (_&Hd&Hnd). inversion_clear Hnd as [|?? Hnot _]. clear - Hin Hd Hnot. set_solver.
      + intros _. apply last_None, app_nil in El as [-> ->]. done. }
  assert (n' !! e = Some (Some e)) as Hn'.
  { unfold n'. destruct (decide (pr_ = e)) as [E|E].
    - rewrite E, lookup_insert. do 2 f_equal. by apply Hself.
    - rewrite lookup_insert_ne by done. apply lookup_insert. }
  assert (q' !! e = Some (Some e)) as Hq'.
  { unfold q'. destruct (decide (nx = e)) as [E|E].
    - rewrite E, lookup_insert. do 2 f_equal. by apply Hself.
    - rewrite lookup_insert_ne by done. apply lookup_insert. }
  assert (circ (jn n') (jn q') (l1 ++ l2)) as Hc'.
  { eapply circ_remove; [exact Hc|exact Hnd|..].
    - intros _. unfold n', q'. by rewrite !jn_insert.
    - intros x Hx1 Hx2. unfold n'. by rewrite !jn_insert_ne.
    - intros x Hx1 Hx2. unfold q'. by rewrite !jn_insert_ne. }
  assert (Hfr : forall x, x ∉ l1 ++ e :: l2 -> n' !! x = pn (P h) !! x /\ q' !! x = pv (P h) !! x).
  { intros x Hx. unfold n', q'. rewrite !lookup_insert_ne; [done|intros <-; by apply Hx..]. }
  case_bool_decide as Hh.
  - eapply wp_set_first; [rewrite E4; eauto|]. intros h5 E5. rewrite E4 in E5. psimp E5.
    eapply HQ; [|exact Hc'|done|done|done]. rewrite E5. do 2 f_equal.
    assert (l1 = []) as ->.
    { destruct l1 as [|y l1]; [done|]. injection Hh as ->. inversion_clear Hnd as [|?? Hnot _]. clear - Hnot. set_solver. }
    case_bool_decide as Hne.
    + unfold nx in Hne. apply succ_self in Hne; [|done]. by rewrite Hne.
    + unfold nx, succ_of in Hne |- *. rewrite app_nil_r in Hne |- *. by destruct l2.
  - apply wp_skip. eapply HQ; [|exact Hc'|done|done|done]. rewrite E4. f_equal. symmetry. apply insert_id.
    rewrite Hf. by destruct l1.
Qed.

(** what [link] finds in the sorted list [l] *)
Inductive link_ans (c : gmap id core) (p : id) (key : nat) : list id -> sll_result -> Prop :=
| la_empty : link_ans c p key [] (EmptyHead p)
| la_head x l : key < ix c x -> link_ans c p key (x :: l) (SmallerThanHead p)
| la_mid l1 x l2 : ix c x < key -> (forall y, y ∈ l2 -> key < ix c y) -> link_ans c p key (l1 ++ x :: l2) (SmallerThanNotHead x)
| la_in l1 x l2 : ix c x = key -> link_ans c p key (l1 ++ x :: l2) (AlreadyInSll x).

Lemma core_ix c x cx : c !! x = Some cx -> ix c x = o_idx cx.
Proof. unfold ix. by intros ->. Qed.

Lemma wp_link_loop c p key x l h (Q : sll_result -> heap -> Prop) :
  pc (P h) = c -> (forall y, y ∈ x :: l -> is_Some (c !! y)) -> circ (jn (pn (P h))) (jn (pv (P h))) (x :: l) ->
  ix c x <= key ->
  (forall r, link_ans c p key (x :: l) r -> Q r h) ->
  forall l1 y l2 fuel, x :: l = l1 ++ y :: l2 -> length (l1 ++ [y]) <= fuel -> (forall z, z ∈ l2 -> key < ix c z) ->
  wp (h_link_loop fuel y key) Q h.
Proof.
  intros Ec Hl Hc Hx HQ l1. remember (length l1) as n eqn:En. revert l1 En.
  induction n as [|n IH]; intros l1 En y l2 fuel El Hfuel Hgt; rewrite app_length in Hfuel; simpl in Hfuel;
    (destruct fuel as [|fuel]; [lia|]); simpl;
    assert (Hy : y ∈ x :: l) by (rewrite El; set_solver); destruct (Hl y Hy) as [cy Hcy];
    apply wp_bind; (eapply wp_get; [rewrite Ec; exact Hcy|]); intros ny Hny _ _ _ Hpv;
    assert (n_idx ny = ix c y) as -> by (rewrite (core_ix _ _ _ Hcy), <- Hny; done);
    destruct (Nat.compare_spec (ix c y) key) as [E|E|E]; try apply wp_ret.
  - apply HQ. rewrite El. by constructor.
  - apply HQ. rewrite El. by constructor.
  - exfalso. destruct l1; [|done]. injection El as <- _. lia.
  - apply HQ. rewrite El. by constructor.
  - apply HQ. rewrite El. by constructor.
  - destruct l1 as [|z l1 _] using rev_ind; [done|].
    rewrite app_length in En; simpl in En. rewrite El in Hc.
    pose proof (circ_pred _ _ _ _ _ Hc) as [Hq1 _].
    assert (pred_of (l1 ++ [z]) y l2 = z) as Hz by (unfold pred_of; by rewrite app_assoc, last_snoc).
    rewrite Hz in Hq1. rewrite (jn_Some _ _ _ Hpv) in Hq1.
    apply wp_bind. eapply wp_ptr; [exact Hq1|]. eapply (IH l1); [lia| | |].
    + by rewrite El, <- app_assoc.
    + rewrite !app_length in *; simpl in *. lia.
    + intros w [->|Hw]%elem_of_cons; [done|auto].
Qed.

Lemma list_size_bound {A} (m : gmap id A) l : NoDup l -> (forall x, x ∈ l -> is_Some (m !! x)) -> length l <= size m.
Proof.
  intros Hnd Hl. rewrite <- size_dom. rewrite <- (size_list_to_set (C := gset id) l Hnd).
  apply subseteq_size. intros x Hx%elem_of_list_to_set. apply elem_of_dom. auto.
Qed.

Lemma wp_link p key l h (Q : sll_result -> heap -> Prop) :
  is_Some (pc (P h) !! p) -> (forall x, x ∈ l -> is_Some (pc (P h) !! x)) ->
  pf (P h) !! p = Some (head l) -> circ (jn (pn (P h))) (jn (pv (P h))) l -> NoDup l ->
  (forall r, link_ans (pc (P h)) p key l r -> Q r h) ->
  wp (h_link p key) Q h.
Proof.
  intros [cp Hp] Hl Hf Hc Hnd HQ. unfold h_link.
  apply wp_bind. eapply wp_get; [exact Hp|]. intros hd _ _ Hfst _ _.
  assert (n_first hd = head l) as -> by congruence. destruct l as [|x l]; simpl.
  - apply wp_ret, HQ. constructor.
  - destruct (Hl x ltac:(left)) as [cx Hx].
    apply wp_bind. eapply wp_get; [exact Hx|]. intros nx Hnx _ _ _ Hpv.
    assert (n_idx nx = ix (pc (P h)) x) as -> by (rewrite (core_ix _ _ _ Hx), <- Hnx; done).
    destruct (Nat.ltb_spec key (ix (pc (P h)) x)).
    + apply wp_ret, HQ. by constructor.
    + destruct (circ_pred _ _ [] x l Hc) as [Hq1 _]. rewrite (jn_Some _ _ _ Hpv) in Hq1.
      apply wp_bind. eapply wp_ptr; [exact Hq1|].
      apply wp_bind, wp_size.
      destruct l as [|z l _] using rev_ind.
      * eapply (wp_link_loop _ p key x [] h Q eq_refl Hl Hc ltac:(lia) HQ [] _ []); [done| |set_solver].
        simpl. lia.
      * unfold pred_of. rewrite app_nil_r, last_snoc. change (default x (Some z)) with z.
        eapply (wp_link_loop _ p key x (l ++ [z]) h Q eq_refl Hl Hc ltac:(lia) HQ (x :: l) z []); [done| |set_solver].
        pose proof (list_size_bound _ _ Hnd Hl) as Hb. rewrite <- P_size in Hb. simpl in *. lia.
Qed.

(** where the new element goes *)
Inductive added (c : gmap id core) (p e : id) (key : nat) : list id -> sll_result -> list id -> Prop :=
| ad_empty : added c p e key [] (EmptyHead p) [e]
| ad_head x l : key < ix c x -> added c p e key (x :: l) (SmallerThanHead p) (e :: x :: l)
| ad_mid l1 x l2 : ix c x < key -> (forall y, y ∈ l2 -> key < ix c y) ->
    added c p e key (l1 ++ x :: l2) (SmallerThanNotHead x) (l1 ++ x :: e :: l2).
Lemma link_ans_added c p e key l r :
  link_ans c p key l r -> (exists x, r = AlreadyInSll x) \/ (exists l', added c p e key l r l').
Proof. intros []; [right..|left]; eauto using added. Qed.
Lemma added_perm c p e key l r l' : added c p e key l r l' -> l' ≡ₚ e :: l.
Proof. intros []; [done|done|]. by rewrite (Permutation_middle l1), (Permutation_swap e x). Qed.
Lemma added_sorted c c' p e key l r l' :
  added c p e key l r l' -> StronglySorted lt (map (ix c) l) -> ix c' e = key -> (forall x, x ∈ l -> ix c' x = ix c x) ->
  StronglySorted lt (map (ix c') l').
Proof.
  intros Ha Hs He Hx.
  assert (Hm : forall k, (forall x, x ∈ k -> x ∈ l) -> map (ix c') k = map (ix c) k).
  { intros k Hk. induction k as [|y k IH]; [done|]. simpl. rewrite IH, Hx; [done|apply Hk; left|].
    intros; apply Hk; by right. }
  destruct Ha as [|x l Hlt|l1 x l2 Hlt Hgt].
  - simpl. repeat constructor.
  - rewrite map_cons, (Hm (x :: l)) by done. constructor; [done|]. rewrite He.
    apply StronglySorted_inv in Hs as [Hs Hf]. constructor; [done|].
    eapply Forall_impl; [exact Hf|]. simpl. intros; lia.
  - rewrite map_app. simpl. rewrite !Hm by set_solver. rewrite Hx by set_solver. rewrite He.
    rewrite map_app in Hs. simpl in Hs. revert Hs. generalize (map (ix c) l1) as k1. intros k1.
    assert (Hgt' : Forall (lt key) (map (ix c) l2)) by (apply Forall_map, Forall_forall; exact Hgt).
    revert Hlt Hgt'. clear. generalize (ix c x) as a, (map (ix c) l2) as k2. intros a k2 Hlt Hgt.
    induction k1 as [|b k1 IH]; simpl; intros [Hs Hf]%StronglySorted_inv.
    + repeat constructor; [done|done|lia|]. done.
    + constructor; [by apply IH|]. rewrite Forall_app in Hf |- *. destruct Hf as [Hf1 Hf2]. split; [done|].
      inversion_clear Hf2. repeat constructor; [done|lia|done].
Qed.

Lemma wp_add_to_sll c p e key l r l' h (Q : unit -> heap -> Prop) :
  added c p e key l r l' ->
  is_Some (pc (P h) !! p) -> (forall x, x ∈ e :: l -> is_Some (pc (P h) !! x)) ->
  pf (P h) !! p = Some (head l) -> circ (jn (pn (P h))) (jn (pv (P h))) l -> NoDup (e :: l) ->
  (forall h' n' q',
     P h' = PM (pc (P h)) (pr (P h)) (<[p:=head l']> (pf (P h))) n' q' (po (P h)) (pk (P h)) ->
     circ (jn n') (jn q') l' ->
     (forall x, x ∉ e :: l -> n' !! x = pn (P h) !! x /\ q' !! x = pv (P h) !! x) -> Q () h') ->
  wp (h_add_to_sll r e) Q h.
Proof.
  intros Ha Hp Hl Hf Hc [Hel Hnd]%NoDup_cons HQ. unfold h_add_to_sll.
  assert (He : is_Some (pc (P h) !! e)) by (apply Hl; left).
  apply wp_bind. eapply wp_set_prev; [done|]. intros h1 E1.
  apply wp_bind. eapply wp_set_next; [by rewrite E1|]. intros h2 E2. rewrite E1 in E2. psimp E2.
  destruct Ha as [|x l Hlt|l1 x l2 Hlt Hgt].
  - eapply wp_set_first; [by rewrite E2|]. intros h3 E3. rewrite E2 in E3. psimp E3.
    eapply HQ; [exact E3|..].
    + apply circ_singleton; by rewrite jn_insert.
    + intros y Hy. rewrite !lookup_insert_ne by set_solver. done.
  - destruct Hp as [cp Hp].
    destruct (circ_pred _ _ [] x l Hc) as [Hq1 Hq2]. set (z := pred_of [] x l) in *.
    assert (Hz : z ∈ x :: l) by apply (pred_in [] x l).
    assert (Hx : is_Some (pc (P h) !! x)) by (apply Hl; set_solver).
    assert (Hz' : is_Some (pc (P h) !! z)) by (apply Hl; by right).
    pose proof (jn_eq _ _ _ (P_pv_some _ _ Hx) Hq1) as Eq1.
    apply wp_bind. eapply wp_get; [rewrite E2; exact Hp|]. intros hd _ _ Hfst _ _. rewrite E2 in Hfst. psimp Hfst.
    assert (n_first hd = Some x) as -> by (rewrite Hf in Hfst; by injection Hfst as <-).
    apply wp_bind. eapply wp_ptr; [done|]. destruct Hx as [cx Hx].
    apply wp_bind. eapply wp_get; [rewrite E2; exact Hx|]. intros ox _ _ _ _ Hop. rewrite E2 in Hop. psimp Hop.
    rewrite lookup_insert_ne in Hop by set_solver.
    apply wp_bind. eapply wp_set_prev; [rewrite E2; eauto|]. intros h3 E3. rewrite E2 in E3. psimp E3.
    apply wp_bind. eapply wp_ptr; [rewrite Eq1 in Hop; by injection Hop as <-|].
    apply wp_bind. eapply wp_set_next; [rewrite E3; eauto|]. intros h4 E4. rewrite E3 in E4. psimp E4.
    apply wp_bind. eapply wp_set_next; [rewrite E4; eauto|]. intros h5 E5. rewrite E4 in E5. psimp E5.
    apply wp_bind. eapply wp_set_prev; [rewrite E5; eauto|]. intros h6 E6. rewrite E5 in E6. psimp E6.
    eapply wp_set_first; [rewrite E6; eauto|]. intros h7 E7. rewrite E6 in E7. psimp E7.
    assert (Hxe : x <> e) by set_solver. assert (Hze : z <> e) by set_solver.
    eapply HQ; [exact E7|..].
    + assert (exists l0, x :: l = l0 ++ [z]) as [l0 El0].
      { unfold z, pred_of. rewrite app_nil_r. destruct l as [|w l _] using rev_ind; [by exists []|].
        rewrite last_snoc. simpl. by exists (x :: l). }
      assert (succ_of l0 z [] = x) as Hsx.
      { unfold succ_of. simpl. destruct l0; simpl in *; congruence. }
      change (e :: x :: l) with ([e] ++ (x :: l)). rewrite El0. rewrite circ_rot, <- app_assoc.
      change (circ (jn (<[e:=Some x]> (<[z:=Some e]> (<[e:=Some e]> (pn (P h))))))
        (jn (<[e:=Some z]> (<[x:=Some e]> (<[e:=Some e]> (pv (P h)))))) (l0 ++ z :: e :: [])).
      eapply (circ_insert (jn (pn (P h))) (jn (pv (P h)))); [by rewrite <- El0|by rewrite <- El0|by rewrite <- El0|..].
      * by rewrite jn_insert_ne, jn_insert by done.
      * rewrite Hsx. by rewrite jn_insert_ne, jn_insert by done.
      * by rewrite jn_insert.
      * by rewrite Hsx, jn_insert.
      * intros y Hy1 Hy2. by rewrite !jn_insert_ne by done.
      * rewrite Hsx. intros y Hy1 Hy2. by rewrite !jn_insert_ne by done.
    + intros y Hy. rewrite !lookup_insert_ne; [done|intros <-; apply Hy; first [by left|by right|right; left|right; clear; set_solver]..].
  - destruct (circ_succ _ _ _ _ _ Hc) as [Hs1 Hs2]. set (z := succ_of l1 x l2) in *.
    assert (Hz : z ∈ l1 ++ x :: l2) by apply succ_in.
    assert (Hx : is_Some (pc (P h) !! x)) by (apply Hl; set_solver).
    assert (Hz' : is_Some (pc (P h) !! z)) by (apply Hl; by right).
    pose proof (jn_eq _ _ _ (P_pn_some _ _ Hx) Hs1) as Es1. destruct Hx as [cx Hx].
    assert (Hxe : x <> e) by set_solver. assert (Hze : z <> e) by set_solver.
    apply wp_bind. eapply wp_get; [rewrite E2; exact Hx|]. intros ox _ _ _ Hon _. rewrite E2 in Hon. psimp Hon.
    rewrite lookup_insert_ne in Hon by done.
    apply wp_bind. eapply wp_set_next; [rewrite E2; eauto|]. intros h3 E3. rewrite E2 in E3. psimp E3.
    apply wp_bind. eapply wp_ptr; [rewrite Es1 in Hon; by injection Hon as <-|].
    apply wp_bind. eapply wp_set_prev; [rewrite E3; eauto|]. intros h4 E4. rewrite E3 in E4. psimp E4.
    apply wp_bind. eapply wp_set_prev; [rewrite E4; eauto|]. intros h5 E5. rewrite E4 in E5. psimp E5.
    eapply wp_set_next; [rewrite E5; eauto|]. intros h6 E6. rewrite E5 in E6. psimp E6.
    eapply HQ.
    + rewrite E6. f_equal. symmetry. apply insert_id. rewrite Hf. by destruct l1.
    + eapply (circ_insert (jn (pn (P h))) (jn (pv (P h)))); [done|done|done|..]; fold z.
      * by rewrite jn_insert_ne, jn_insert by done.
      * by rewrite jn_insert_ne, jn_insert by done.
      * by rewrite jn_insert.
      * by rewrite jn_insert.
      * intros y Hy1 Hy2. by rewrite !jn_insert_ne by done.
      * intros y Hy1 Hy2. by rewrite !jn_insert_ne by done.
    + intros y Hy. rewrite !lookup_insert_ne; [done|intros <-; apply Hy; first [by left|by right|right; left|right; clear; set_solver]..].
Qed.

(** [adjust] shifts the indices of the whole list *)
Definition dl (by_ : delta) (k : nat) : nat := match by_ with DAdd n => k + n | DSub n => k - n end.
(** proof device, no counterpart in the code *)
Definition adjc (from : nat) (by_ : delta) (cx : core) : core :=
  if from <=? o_idx cx then c_idx (dl by_ (o_idx cx)) cx else cx.

Lemma wp_adjust_loop elem from by_ rest : forall curr fuel h (Q : unit -> heap -> Prop),
  chain (jn (pn (P h))) (jn (pv (P h))) (curr :: rest ++ [elem]) -> NoDup (curr :: rest) -> elem ∉ rest ->
  (forall x, x ∈ curr :: rest -> exists cx, pc (P h) !! x = Some cx /\ (from <= o_idx cx -> add_delta (o_idx cx) by_ = Ok (dl by_ (o_idx cx)))) ->
  length (curr :: rest) <= fuel ->
  (forall h' c', P h' = set_pc (P h) c' ->
     (forall x, c' !! x = if decide (x ∈ curr :: rest) then adjc from by_ <$> pc (P h) !! x else pc (P h) !! x) -> Q () h') ->
  wp (h_adjust_loop fuel elem curr from by_) Q h.
Proof.
  induction rest as [|y rest IH]; intros curr fuel h Q Hc Hnd Hel Hl Hf HQ;
    (destruct fuel as [|fuel]; [simpl in Hf; lia|]); cbn [h_adjust_loop];
    destruct (Hl curr ltac:(left)) as (cx&Hcx&Hadd);
    apply wp_bind; (eapply wp_get; [exact Hcx|]); intros nc Ec _ _ _ _;
    assert (n_idx nc = o_idx cx) as -> by (by rewrite <- Ec);
    apply wp_bind;
    assert (Hstep : forall (Q' : unit -> heap -> Prop), (forall h1, P h1 = set_pc (P h) (<[curr:=adjc from by_ cx]> (pc (P h))) -> Q' () h1) ->
      wp (if from <=? o_idx cx then key ← lift (add_delta (o_idx cx) by_); h_mod curr (set_idx key) else hskip) Q' h).
  1,3: intros Q' HQ'; unfold adjc in HQ'; destruct (Nat.leb_spec from (o_idx cx)) as [Hle|Hle];
      [apply wp_bind; eapply wp_lift; [by apply Hadd|]; eapply wp_set_idx; [exact Hcx|]; exact HQ'
      |apply wp_skip, HQ'; rewrite insert_id by done; by destruct (P h)].
  - apply Hstep. intros h1 E1. apply wp_bind. eapply wp_get; [rewrite E1; apply lookup_insert|].
    intros n1 _ _ _ Hn _. rewrite E1 in Hn. psimp Hn. destruct Hc as (Hc&_&_).
    rewrite (jn_Some _ _ _ Hn) in Hc. apply wp_bind. eapply wp_ptr; [exact Hc|].
    rewrite bool_decide_eq_true_2 by done. apply wp_skip. eapply HQ; [exact E1|].
    intros x. destruct (decide (x = curr)) as [->|Hne].
    + rewrite lookup_insert, decide_True, Hcx by (clear; set_solver). done.
    + rewrite lookup_insert_ne, decide_False by (clear - Hne; set_solver). done.
  - apply Hstep. intros h1 E1. apply wp_bind. eapply wp_get; [rewrite E1; apply lookup_insert|].
    intros n1 _ _ _ Hn _. rewrite E1 in Hn. psimp Hn. destruct Hc as (Hc&_&Hc').
    rewrite (jn_Some _ _ _ Hn) in Hc. apply wp_bind. eapply wp_ptr; [exact Hc|].
    apply not_elem_of_cons in Hel as [Hey Hel].
    rewrite bool_decide_eq_false_2 by done. apply NoDup_cons in Hnd as [Hcn Hnd].
    eapply IH; [rewrite E1; psimpg; exact Hc'|exact Hnd|exact Hel| |simpl in *; lia|].
    + intros x Hx. destruct (Hl x ltac:(by right)) as (c1&Hc1&Ha). exists c1. split; [|done].
      rewrite E1. psimpg. rewrite lookup_insert_ne; [done|]. intros ->. done.
    + intros h' c' E' Hc'2. eapply HQ; [rewrite E', E1; reflexivity|]. intros x. rewrite Hc'2, E1. psimpg.
      destruct (decide (x = curr)) as [->|Hne].
      * rewrite decide_False, lookup_insert, decide_True, Hcx; [done|left|done].
      * rewrite !lookup_insert_ne by done. destruct (decide (x ∈ y :: rest)).
        -- rewrite decide_True; [done|by right].
        -- rewrite decide_False; [done|]. intros [?|?]%elem_of_cons; done.
Qed.
Lemma wp_adjust elem from by_ l1 l2 h (Q : unit -> heap -> Prop) :
  circ (jn (pn (P h))) (jn (pv (P h))) (l1 ++ elem :: l2) -> NoDup (l1 ++ elem :: l2) ->
  (forall x, x ∈ l1 ++ elem :: l2 -> exists cx, pc (P h) !! x = Some cx /\ (from <= o_idx cx -> add_delta (o_idx cx) by_ = Ok (dl by_ (o_idx cx)))) ->
  (forall h' c', P h' = set_pc (P h) c' ->
     (forall x, c' !! x = if decide (x ∈ l1 ++ elem :: l2) then adjc from by_ <$> pc (P h) !! x else pc (P h) !! x) -> Q () h') ->
  wp (h_adjust elem from by_) Q h.
Proof.
  intros Hc Hnd Hl HQ. apply wp_bind, wp_size. apply circ_mid in Hc. rewrite app_assoc in Hc.
  assert (Hperm : l1 ++ elem :: l2 ≡ₚ elem :: (l2 ++ l1)).
  { rewrite <- Permutation_middle. constructor. apply Permutation_app_comm. }
  assert (Hnd' := Hnd). rewrite Hperm in Hnd'.
  assert (Hl' : forall x, x ∈ elem :: (l2 ++ l1) -> x ∈ l1 ++ elem :: l2) by (intros x; by rewrite Hperm).
  eapply wp_adjust_loop; [exact Hc|exact Hnd'|by inversion Hnd'|auto| |].
  - pose proof (list_size_bound (pc (P h)) _ Hnd') as Hb. rewrite <- P_size in Hb. etransitivity; [apply Hb|lia].
    intros x Hx%Hl'%Hl. destruct Hx as (?&?&_). eauto.
  - intros h' c' E' Hc'. eapply HQ; [exact E'|]. intros x. rewrite Hc'.
    destruct (decide (x ∈ elem :: (l2 ++ l1))) as [Hx|Hx].
    + rewrite decide_True; [done|auto].
    + rewrite decide_False; [done|]. by rewrite Hperm.
Qed.
