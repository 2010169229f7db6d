(** * Lemmas on data races: steps *)
From Verif Require Export RacesFacts.
Local Open Scope nat_scope.

(** the monitor after an event of thread [t] *)
(** proof device, no counterpart in the code *)
Definition tick (t : nat) (M : mon) : mon :=
  let V1 := {[length (mo_hist M)]} ∪ mview M t in
  MON (mo_hist M ++ [V1]) (<[t := V1]> (mo_view M)) (mo_vars M) (mo_cells M).
Lemma rinv_tick st t M : rinv st M -> rinv st (tick t M).
Proof. intros HI. exact (rinv_event st M t HI). Qed.
Lemma tick_view t M : mview (tick t M) t = {[length (mo_hist M)]} ∪ mview M t.
Proof. unfold tick. rewrite mview_put. by rewrite decide_True. Qed.
Lemma tick_mono t M u : mview M u ⊆ mview (tick t M) u.
Proof. unfold tick. rewrite mview_put. destruct (decide (t = u)) as [->|Hne]; [set_solver|done]. Qed.
Lemma tick_hist t M : mo_hist (tick t M) !! length (mo_hist M) = Some ({[length (mo_hist M)]} ∪ mview M t).
Proof. simpl. by rewrite lookup_app_r, Nat.sub_diag by lia. Qed.
Lemma view_cells hist view vs vs' cs cs' u : mview (MON hist view vs cs) u = mview (MON hist view vs' cs') u.
Proof. done. Qed.
Lemma no_free st t th x n d : mfacts st -> gc_thr st !! t = Some th -> FFree x ∈ gt_stk th -> gmm (gc_mem st) !! x <> Some (S n, d).
Proof. intros HF Ht Hx Hl. destruct (mf_free _ HF _ _ _ Ht Hx) as [d' ?]. congruence. Qed.

Lemma peek_Some {A} i (l : list (option A)) x : g_peek i l = Some x <-> l !! i = Some (Some x).
Proof. unfold g_peek. destruct (l !! i) as [[y|]|]; simpl; naive_solver. Qed.

(** a thread that may use a variable knows the initialisation of what it points to *)
Lemma use_ini st M t o h a : rinv st M -> t_peek st o h = Some a -> may_use M t o h = true ->
  exists tho, gc_thr st !! o = Some tho /\ gt_env tho !! h = Some (Some a) /\ (exists b U, mo_vars M !! (o, h) = Some (b, U)) /\
  exists c, mo_cells M !! a = Some c /\ rc_ini c ∈ mview M t.
Proof.
  intros HI. unfold t_peek. destruct (gc_thr st !! o) as [tho|] eqn:Eo; [|done]. intros Hp%peek_Some Hm. exists tho. split; [done|]. split; [done|].
  destruct (ri_var _ _ HI _ _ _ _ Eo Hp) as (b&U&c&H&Hv&Hb&Hc&Hh&Hi). split; [eauto|]. exists c. split; [done|]. unfold may_use in Hm.
  destruct (decide (o = t)) as [->|Hne].
  - eapply closed_ini; [apply (ri_view _ _ HI t)|exact Hb|done|done].
  - rewrite Hv in Hm. apply bool_decide_eq_true in Hm. eapply closed_ini; [apply (ri_view _ _ HI t)|exact Hm|done|done].
Qed.
(** after an event, a use and accesses starting with what the variable points to *)
Lemma used st M t o h a xs : rinv st M -> mfacts st -> t_peek st o h = Some a -> may_use M t o h = true ->
  Forall (fun x => (exists n d, gmm (gc_mem st) !! x = Some (S n, d)) /\ exists c, mo_cells M !! x = Some c /\ rc_ini c ∈ mview M t) xs ->
  (forall l1 x l2, xs = l1 ++ x :: l2 -> x = a \/ exists b n c, b ∈ l1 /\ gmm (gc_mem st) !! b = Some (n, c) /\ x ∈ cslots c) ->
  let e := length (mo_hist M) in
  exists cs, touches e (mview M t) xs (mo_cells M) = Ok cs /\
    rinv st (MON (mo_hist (tick t M)) (mo_view (tick t M)) (use e o h (mo_vars M)) cs) /\
    (forall x c, mo_cells M !! x = Some c -> exists c', cs !! x = Some c' /\ rc_ini c' = rc_ini c).
Proof.
  intros HI HF Hp Hm Hxs Hsplit e. destruct (use_ini _ _ _ _ _ _ HI Hp Hm) as (tho&Hto&Hh&(b&U&Hv)&_).
  pose proof (rinv_tick st t M HI) as HI1. apply (rinv_use st (tick t M) e o h) in HI1. simpl in HI1.
  destruct (rinv_touches st e (mview M t) (mo_hist (tick t M)) (mo_view (tick t M)) (use e o h (mo_vars M)) xs [] (mo_cells M)) as (cs&E&HI2&Hcs).
  - done.
  - eapply Forall_impl; [exact Hxs|]. by intros x [? _].
  - intros t' th' x n d. by apply no_free.
  - eapply Forall_impl; [exact Hxs|]. by intros x [_ ?].
  - intros y Hy. by apply elem_of_nil in Hy.
  - intros l1 x l2 cs Hl Hin. destruct (Hsplit l1 x l2 Hl) as [->|(b'&n&c&Hb&Hmb&Hx)].
    + eapply cov_var; [done|done| | | |].
      * simpl. unfold use. rewrite lookup_alter, Hv. reflexivity.
      * simpl. apply elem_of_union. left. by apply elem_of_singleton.
      * apply tick_hist.
      * unfold e. set_solver.
    + destruct (Hin b' Hb) as (c'&Hc'&He). destruct n as [|n].
      { rewrite (mf_dead _ HF _ _ Hmb) in Hx. by apply elem_of_nil in Hx. }
      eapply cov_slot; [exact Hmb|exact Hx|exact Hc'|exact He|apply tick_hist|]. unfold e. set_solver.
  - exists cs. done.
Qed.

Section steps.
Context (al : nat -> gset addr -> addr) (Hal : galloc_ok al).
Lemma new_fresh st : gmm (gc_mem st) !! al (gck (gc_mem st)) (dom (gmm (gc_mem st))) = None.
Proof using Hal. apply not_elem_of_dom. apply Hal. Qed.

Lemma step_token st M t th k s : rinv st M -> mfacts st -> gc_thr st !! t = Some th ->
  let new := al (gck (gc_mem st)) (dom (gmm (gc_mem st))) in
  let e := length (mo_hist M) in
  rinv (GCS (GST (<[new := (1, GCTok k s)]> (gmm (gc_mem st))) (S (gck (gc_mem st)))) (<[t := GTH (gt_env th ++ [Some new]) (gt_stk th)]> (gc_thr st)))
       (MON (mo_hist (tick t M)) (mo_view (tick t M)) (<[(t, length (gt_env th)) := (e, {[e]})]> (mo_vars M)) (<[new := RC e {[e]} ∅]> (mo_cells M))).
Proof using Hal.
  intros HI HF Ht new e. pose proof (rinv_tick st t M HI) as HI1.
  pose proof (rinv_alloc st (tick t M) t th new (GCTok k s) (gt_stk th) e (S (gck (gc_mem st))) HI1 (mf_dead _ HF) Ht (new_fresh st)) as HI2. simpl in HI2.
  match type of HI2 with ?P -> _ => assert P as H1 end. { rewrite tick_view. apply tick_hist. } specialize (HI2 H1). clear H1.
  match type of HI2 with ?P -> _ => assert P as H1 end. { rewrite tick_view. unfold e. set_solver. } specialize (HI2 H1). clear H1.
  specialize (HI2 ltac:(intros x Hx; by apply elem_of_nil in Hx) ltac:(done) ltac:(intros x Hx; by left)).
  eapply (rinv_push _ _ t (GTH (gt_env th) (gt_stk th)) (Some new) e _) in HI2; [simpl in HI2; rewrite list_insert_insert in HI2; exact HI2|..].
  - simpl. rewrite list_lookup_insert; [done|by eapply lookup_lt_Some].
  - apply tick_hist.
  - change (e ∈ mview (tick t M) t). rewrite tick_view. unfold e. set_solver.
  - exists (RC e {[e]} ∅). simpl. rewrite lookup_insert. split; [done|]. unfold e. split; [set_solver|]. intros _. set_solver.
Qed.

Lemma step_node pr st M t th k hs xs env' r mem' : rinv st M -> mfacts st -> gc_thr st !! t = Some th ->
  g_move hs (gt_env th) = Some (xs, env') -> forallb (may_take M t) hs = true -> t_new al pr k xs (gc_mem st) = (Ok r, mem') ->
  let new := al (gck (gc_mem st)) (dom (gmm (gc_mem st))) in
  let e := length (mo_hist M) in
  exists cs, touches e (mview M t) xs (mo_cells M) = Ok cs /\
  rinv (GCS mem' (<[t := match r with inl a => GTH (env' ++ [Some a]) (gt_stk th) | inr rest => GTH (env' ++ [None]) (map FDrop rest ++ gt_stk th) end]> (gc_thr st)))
       (MON (mo_hist (tick t M)) (mo_view (tick t M)) (<[(t, length (gt_env th)) := (e, {[e]})]> (mo_vars M)) (<[new := RC e {[e]} ∅]> cs)).
Proof using Hal.
  intros HI HF Ht Hmv Hmt Hnew new e.
  assert (Hlen : length env' = length (gt_env th)).
  { clear -Hmv. revert xs Hmv. generalize (gt_env th). induction hs as [|h hs IH]; intros env xs; simpl; [by intros [= _ ->]|].
    destruct (env !! h) as [[x|]|]; [|done|done]. destruct (g_move hs (<[h := None]> env)) as [[xs1 env1]|] eqn:E; [|done].
    intros [= _ ->]. rewrite (IH _ _ E). by rewrite insert_length. }
  assert (Hx : Forall (fun x => (exists n d, gmm (gc_mem st) !! x = Some (S n, d)) /\ exists c, mo_cells M !! x = Some c /\ rc_ini c ∈ mview M t) xs).
  { assert (forall x, x ∈ xs -> exists h, gt_env th !! h = Some (Some x)) as Hxs.
    { clear -Hmv. revert xs Hmv. generalize (gt_env th). induction hs as [|h hs IH]; intros env xs; simpl; [intros [= <- _] x Hx; by apply elem_of_nil in Hx|].
      destruct (env !! h) as [[x|]|] eqn:Eh; [|done|done]. destruct (g_move hs (<[h := None]> env)) as [[xs1 env1]|] eqn:E; [|done].
      intros [= <- ->] y [->|Hy]%elem_of_cons; [eauto|]. destruct (IH _ _ E y Hy) as [h' Hh']. exists h'.
      apply list_lookup_insert_Some in Hh'. naive_solver. }
    apply Forall_forall. intros x Hx. destruct (Hxs x Hx) as [h Hh]. split; [by eapply mf_var|].
    destruct (ri_var _ _ HI _ _ _ _ Ht Hh) as (b&U&c&H&_&Hb&Hc&Hh'&Hi). exists c. split; [done|]. eapply closed_ini; [apply (ri_view _ _ HI t)|exact Hb|done|done]. }
  pose proof (rinv_tick st t M HI) as HI1.
  destruct (rinv_takes (tick t M) t hs st th xs env' HI1 Ht Hmv) as (k0&HI2&Hk0).
  { apply forallb_forall. intros h Hh. pose proof (proj1 (forallb_forall _ _) Hmt h Hh) as Hm. unfold may_take in *. simpl.
    destruct (mo_vars M !! (t, h)) as [[b U]|]; [|done]. apply bool_decide_eq_true in Hm. apply bool_decide_eq_true. rewrite tick_view. set_solver. }
  assert (Ht1 : <[t := GTH env' k0]> (gc_thr st) !! t = Some (GTH env' k0)) by (rewrite list_lookup_insert; [done|by eapply lookup_lt_Some]).
  destruct (rinv_touches _ e (mview M t) (mo_hist (tick t M)) (mo_view (tick t M)) (mo_vars M) xs [] (mo_cells M) HI2) as (cs&E&HI3&Hcs).
  - eapply Forall_impl; [exact Hx|]. by intros x [? _].
  - simpl. intros t' th' x n d [[-> ->]|[Hne Hu]]%thr_put; simpl; [|intros Hf; exact (no_free _ _ _ _ _ _ HF Hu Hf)]. intros [Hf|Hf]%Hk0; [|exact (no_free _ _ _ _ _ _ HF Ht Hf)].
    apply elem_of_list_In, in_map_iff in Hf as (?&[=]&_).
  - eapply Forall_impl; [exact Hx|]. by intros x [_ ?].
  - intros y Hy. by apply elem_of_nil in Hy.
  - intros l1 x l2 cs Hl _. eapply cov_pend; [exact Ht1| |].
    + simpl. apply Hk0. left. apply elem_of_list_In, in_map. subst xs. apply in_elt.
    + change (e ∈ mview (tick t M) t). rewrite tick_view. unfold e. set_solver.
  - exists cs. split; [done|]. destruct (new_shape _ _ _ _ _ _ _ Hnew) as (w&tl&->&Hr). fold new.
    assert (Hsl : forall x, x ∈ cslots (GCNode k tl w) -> FDrop x ∈ k0).
    { intros x Hx'. apply Hk0. left. apply elem_of_list_In, in_map, elem_of_list_In. simpl in Hx'. destruct r; [destruct Hr as [_ <-]; done|].
      rewrite <-Hr. apply elem_of_app. by left. }
    set (k' := match r with inl _ => [] | inr rest => map FDrop rest end ++ gt_stk th).
    pose proof (rinv_alloc _ _ t (GTH env' k0) new (GCNode k tl w) k' e (S (gck (gc_mem st))) HI3 (mf_dead _ HF) Ht1 (new_fresh st)) as HI4. simpl in HI4.
    match type of HI4 with ?P -> _ => assert P as H1 end.
    { change (mo_hist (tick t M) !! e = Some (mview (tick t M) t)). rewrite tick_view. apply tick_hist. } specialize (HI4 H1). clear H1.
    match type of HI4 with ?P -> _ => assert P as H1 end. { change (e ∈ mview (tick t M) t). rewrite tick_view. unfold e. set_solver. } specialize (HI4 H1). clear H1.
    specialize (HI4 Hsl).
    match type of HI4 with ?P -> _ => assert P as H1 end.
    { intros f. unfold k'. rewrite Hk0, elem_of_app. intros [Hf|Hf]; [|by right]. left. destruct r as [|rest]; [by apply elem_of_nil in Hf|].
      apply elem_of_list_In, in_map_iff in Hf as (x&<-&Hx'). apply elem_of_list_In, in_map. rewrite <-Hr. apply in_or_app. by right. }
    specialize (HI4 H1). clear H1.
    match type of HI4 with ?P -> _ => assert P as H1 end.
    { intros x. rewrite Hk0. intros [Hf|Hf]; [|left; apply elem_of_app; by right]. apply elem_of_list_In, in_map_iff in Hf as (y&[= ->]&Hx').
      destruct r as [a|rest].
      - right. simpl. destruct Hr as [_ ->]. by apply elem_of_list_In.
      - rewrite <-Hr in Hx'. apply in_app_or in Hx' as [Hx'|Hx']; [right; by apply elem_of_list_In|left]. unfold k'. apply elem_of_app. left. by apply elem_of_list_In, in_map. }
    specialize (HI4 H1). clear H1. rewrite list_insert_insert in HI4.
    eapply (rinv_push _ _ t (GTH env' k') (match r with inl a => Some a | inr _ => None end) e _) in HI4.
    + simpl in HI4. rewrite list_insert_insert, Hlen in HI4. destruct r; exact HI4.
    + simpl. rewrite list_lookup_insert; [done|by eapply lookup_lt_Some].
    + apply tick_hist.
    + change (e ∈ mview (tick t M) t). rewrite tick_view. unfold e. set_solver.
    + destruct r as [a|]; [|done]. destruct Hr as [-> _]. fold new. exists (RC e {[e]} ∅). simpl. rewrite lookup_insert. split; [done|]. unfold e. split; [set_solver|]. intros _. set_solver.
Qed.
End steps.

Lemma step_clone st M t th o h a n d : rinv st M -> mfacts st -> gc_thr st !! t = Some th -> t_peek st o h = Some a ->
  may_use M t o h = true -> gmm (gc_mem st) !! a = Some (S n, d) ->
  let e := length (mo_hist M) in
  exists cs, touch e (mview M t) a (mo_cells M) = Ok cs /\
  rinv (GCS (GST (<[a := (S (S n), d)]> (gmm (gc_mem st))) (gck (gc_mem st))) (<[t := GTH (gt_env th ++ [Some a]) (gt_stk th)]> (gc_thr st)))
       (MON (mo_hist (tick t M)) (mo_view (tick t M)) (<[(t, length (gt_env th)) := (e, {[e]})]> (use e o h (mo_vars M))) cs).
Proof.
  intros HI HF Ht Hp Hm Ha e. destruct (use_ini _ _ _ _ _ _ HI Hp Hm) as (tho&Hto&Hh&_&(c&Hc&Hi)).
  destruct (used st M t o h a [a] HI HF Hp Hm) as (cs&E&HI1&Hcs).
  - constructor; [|constructor]. split; eauto.
  - intros [|y l1] x l2; [intros [= ->]; by left|]. intros [= _ H]. by destruct l1.
  - simpl in E. fold e in E, HI1. destruct (touch e (mview M t) a (mo_cells M)) as [cs'|] eqn:E'; [|done]. injection E as ->.
    exists cs. split; [done|]. apply (rinv_count _ _ a n (S n) d (gck (gc_mem st))) in HI1; [|done].
    eapply (rinv_push _ _ t th (Some a) e _) in HI1; [exact HI1|done|apply tick_hist|..].
    + change (e ∈ mview (tick t M) t). rewrite tick_view. unfold e. set_solver.
    + destruct (Hcs _ _ Hc) as (c'&Hc'&Hi'). exists c'. split; [done|]. split; [rewrite Hi'; set_solver|].
      intros [Hu _]. simpl in Hu. by destruct (Hu o tho h Hto Hh).
Qed.
Lemma step_child st M t th o h i a n d : rinv st M -> mfacts st -> gc_thr st !! t = Some th -> t_peek st o h = Some a ->
  may_use M t o h = true -> gmm (gc_mem st) !! a = Some (S n, d) ->
  let e := length (mo_hist M) in
  exists cs, touches e (mview M t) (a :: match cslots d !! i with Some x => [x] | None => [] end) (mo_cells M) = Ok cs /\
  match cslots d !! i with
  | Some x => exists n' d', gmm (gc_mem st) !! x = Some (S n', d') /\
      rinv (GCS (GST (<[x := (S (S n'), d')]> (gmm (gc_mem st))) (gck (gc_mem st))) (<[t := GTH (gt_env th ++ [Some x]) (gt_stk th)]> (gc_thr st)))
       (MON (mo_hist (tick t M)) (mo_view (tick t M)) (<[(t, length (gt_env th)) := (e, {[e]})]> (use e o h (mo_vars M))) cs)
  | None =>
      rinv (GCS (gc_mem st) (<[t := GTH (gt_env th ++ [None]) (gt_stk th)]> (gc_thr st)))
       (MON (mo_hist (tick t M)) (mo_view (tick t M)) (<[(t, length (gt_env th)) := (e, {[e]})]> (use e o h (mo_vars M))) cs)
  end.
Proof.
  intros HI HF Ht Hp Hm Ha e. destruct (use_ini _ _ _ _ _ _ HI Hp Hm) as (tho&Hto&Hh&_&(c&Hc&Hi)).
  assert (Hev : e ∈ mview (tick t M) t) by (rewrite tick_view; unfold e; set_solver).
  destruct (cslots d !! i) as [x|] eqn:Ex.
  - assert (Hx : x ∈ cslots d) by (by eapply elem_of_list_lookup_2).
    destruct (mf_slot _ HF _ _ _ _ Ha Hx) as (n'&d'&Hx').
    destruct (ri_slot _ _ HI _ _ _ _ Ha Hx) as (cb&cx&H&Eb&Ecx&EH&Hix). rewrite Hc in Eb. injection Eb as <-.
    assert (Hinx : rc_ini cx ∈ mview M t) by (eapply closed_ini; [apply (ri_view _ _ HI t)|exact Hi|done|done]).
    destruct (used st M t o h a [a; x] HI HF Hp Hm) as (cs&E&HI1&Hcs).
    + constructor; [split; eauto|]. constructor; [split; eauto|]. constructor.
    + intros [|y [|z l1]] x' l2; [intros [= ->]; by left| |].
      * intros [= <- <- _]. right. exists a, (S n), d. split; [left|done].
      * intros [= _ _ H0]. by destruct l1.
    + fold e in E, HI1. exists cs. split; [done|]. exists n', d'. split; [done|].
      apply (rinv_count _ _ x n' (S n') d' (gck (gc_mem st))) in HI1; [|done].
      eapply (rinv_push _ _ t th (Some x) e _) in HI1; [exact HI1|done|apply tick_hist|exact Hev|].
      destruct (Hcs _ _ Ecx) as (c'&Hc'&Hi'). exists c'. split; [done|]. split; [rewrite Hi'; set_solver|].
      intros (_&_&Hu). simpl in Hu. exfalso. destruct (decide (x = a)) as [->|Hne].
      * rewrite Ha in Hx'. injection Hx' as <- <-. apply (Hu a (S (S n)) d); [by rewrite lookup_insert|done].
      * apply (Hu a (S n) d); [by rewrite lookup_insert_ne|done].
  - destruct (used st M t o h a [a] HI HF Hp Hm) as (cs&E&HI1&Hcs).
    + constructor; [|constructor]. split; eauto.
    + intros [|y l1] x l2; [intros [= ->]; by left|]. intros [= _ H]. by destruct l1.
    + fold e in E, HI1. exists cs. split; [done|].
      eapply (rinv_push _ _ t th None e _) in HI1; [exact HI1|done|apply tick_hist|exact Hev|done].
Qed.
Lemma step_read st M t o h a n d : rinv st M -> mfacts st -> t_peek st o h = Some a ->
  may_use M t o h = true -> gmm (gc_mem st) !! a = Some (S n, d) ->
  let e := length (mo_hist M) in
  exists cs, touches e (mview M t) (below (S (size (gmm (gc_mem st)))) (gmm (gc_mem st)) a) (mo_cells M) = Ok cs /\
  rinv st (MON (mo_hist (tick t M)) (mo_view (tick t M)) (use e o h (mo_vars M)) cs).
Proof.
  intros HI HF Hp Hm Ha e. destruct (use_ini _ _ _ _ _ _ HI Hp Hm) as (tho&Hto&Hh&_&Hc).
  destruct (used st M t o h a (below (S (size (gmm (gc_mem st)))) (gmm (gc_mem st)) a) HI HF Hp Hm) as (cs&E&HI1&Hcs).
  - eapply below_live; [done|done|apply (ri_view _ _ HI t)|done|done].
  - intros l1 x l2. apply below_split.
  - exists cs. done.
Qed.
Lemma may_take_tick st M t th h a : rinv st M -> gc_thr st !! t = Some th -> gt_env th !! h = Some (Some a) -> may_take M t h = true ->
  exists b U, mo_vars M !! (t, h) = Some (b, U) /\ U ⊆ mview M t.
Proof.
  intros HI Ht Hh Hm. unfold may_take in Hm. destruct (mo_vars M !! (t, h)) as [[b U]|]; [|done]. apply bool_decide_eq_true in Hm. eauto.
Qed.
Lemma step_drop st M t th h a : rinv st M -> gc_thr st !! t = Some th -> gt_env th !! h = Some (Some a) -> may_take M t h = true ->
  rinv (GCS (gc_mem st) (<[t := GTH (<[h := None]> (gt_env th)) (FDrop a :: gt_stk th)]> (gc_thr st))) (tick t M).
Proof.
  intros HI Ht Hh Hm. destruct (may_take_tick _ _ _ _ _ _ HI Ht Hh Hm) as (b&U&Hv&HU).
  eapply rinv_take; [by apply rinv_tick|done|done|done|]. pose proof (tick_mono t M t). set_solver.
Qed.
Lemma step_send st M t th h a u thu : rinv st M -> gc_thr st !! t = Some th -> gt_env th !! h = Some (Some a) -> may_take M t h = true ->
  <[t := GTH (<[h := None]> (gt_env th)) (gt_stk th)]> (gc_thr st) !! u = Some thu ->
  let e := length (mo_hist M) in
  let V1 := {[e]} ∪ mview M t in
  rinv (GCS (gc_mem st) (<[u := GTH (gt_env thu ++ [Some a]) (gt_stk thu)]> (<[t := GTH (<[h := None]> (gt_env th)) (gt_stk th)]> (gc_thr st))))
    (MON (mo_hist M ++ [V1]) (<[u := V1 ∪ mview M u]> (<[t := V1]> (mo_view M))) (<[(u, length (gt_env thu)) := (e, {[e]})]> (mo_vars M)) (mo_cells M)).
Proof.
  intros HI Ht Hh Hm Hu e V1. destruct (may_take_tick _ _ _ _ _ _ HI Ht Hh Hm) as (b&U&Hv&HU).
  pose proof (rinv_tick st t M HI) as HI1.
  apply (rinv_know st (tick t M) u (V1 ∪ mview M u)) in HI1.
  - set (M2 := MON (mo_hist (tick t M)) (<[u := V1 ∪ mview M u]> (mo_view (tick t M))) (mo_vars (tick t M)) (mo_cells (tick t M))) in *.
    assert (Hvt : mview M2 t = V1).
    { unfold M2. rewrite mview_put. destruct (decide (u = t)) as [->|Hne].
      - apply set_eq. intros x. unfold V1. set_solver.
      - change (mview (tick t M) t = V1). by rewrite tick_view. }
    assert (Hvu : V1 ⊆ mview M2 u).
    { unfold M2. rewrite mview_put, decide_True by done. set_solver. }
    pose proof (rinv_take st M2 t th h a b U HI1 Ht Hh Hv) as HI2. specialize (HI2 ltac:(rewrite Hvt; unfold V1; set_solver)).
    eapply (rinv_give _ M2 t (GTH (<[h := None]> (gt_env th)) (FDrop a :: gt_stk th)) u thu (gt_stk th) a e) in HI2.
    + simpl in HI2. rewrite list_insert_insert in HI2. exact HI2.
    + simpl. rewrite list_lookup_insert; [done|by eapply lookup_lt_Some].
    + done.
    + simpl. by rewrite list_insert_insert.
    + rewrite Hvt. apply tick_hist.
    + apply Hvu. unfold V1. set_solver.
  - apply closed_union.
    + pose proof (ri_view _ _ HI1 t) as Hc. rewrite tick_view in Hc. exact Hc.
    + apply closed_app. apply (ri_view _ _ HI).
  - unfold tick. rewrite mview_put. destruct (decide (t = u)) as [->|Hne]; [unfold V1; set_solver|].
    change (mview M u ⊆ V1 ∪ mview M u). set_solver.
Qed.
(** the touch of the count in a drop *)
Lemma drop_touch st M t th a k n d : rinv st M -> mfacts st -> gc_thr st !! t = Some th -> gt_stk th = FDrop a :: k ->
  gmm (gc_mem st) !! a = Some (S n, d) ->
  let e := length (mo_hist M) in
  let V1 := {[e]} ∪ mview M t in
  exists cs c, touch e (mview M t) a (mo_cells M) = Ok cs /\ cs !! a = Some c /\
    rinv st (MON (mo_hist (tick t M)) (mo_view (tick t M)) (mo_vars M) (<[a := RC (rc_ini c) (rc_acc c) (rc_rel c ∪ V1)]> cs)).
Proof.
  intros HI HF Ht Hk Ha e V1. pose proof (rinv_tick st t M HI) as HI1.
  destruct (rinv_touch st (tick t M) e (mview M t) a n d HI1 Ha) as (cs&E&HI2&_&(c&Hc&He)).
  - eapply cov_pend; [exact Ht|rewrite Hk; left|]. rewrite tick_view. unfold e. set_solver.
  - apply (ri_pend _ _ HI _ _ _ Ht). rewrite Hk. left.
  - intros t' th' Ht' Hf. by apply (no_free _ _ _ _ n d HF Ht' Hf).
  - exists cs, c. split; [done|]. split; [done|]. apply (rinv_rel _ _ a c V1) in HI2; [done|done|].
    pose proof (ri_view _ _ HI1 t) as Hv. rewrite tick_view in Hv. exact Hv.
Qed.

Lemma mon_step_ok al (Hal : galloc_ok al) pr t o st M b st' : rinv st M -> mfacts st -> t_step al pr t o st = Ok (b, st') ->
  mon_step al t o st M = g_reject \/ exists M', mon_step al t o st M = Ok M' /\ rinv st' M'.
Proof.
  intros HI HF. unfold t_step, mon_step. destruct (gc_thr st !! t) as [th|] eqn:Ht; [|done].
  destruct o as [k s|k hs|o h|o h i|o h|h|h u|].
  - unfold gs_token, gs_alloc. intros [= <- <-]. right. eexists. split; [done|]. by apply step_token.
  - destruct (g_move hs (gt_env th)) as [[xs env']|] eqn:Em; [|done]. destruct (t_new al pr k xs (gc_mem st)) as [[r|] mem'] eqn:En; [|done].
    intros H. destruct (forallb (may_take M t) hs) eqn:Ef; [|by left]. right.
    destruct (step_node al Hal pr st M t th k hs xs env' r mem' HI HF Ht Em Ef En) as (cs&E&HI'). rewrite E. simpl. eexists. split; [done|].
    destruct r; injection H as _ <-; exact HI'.
  - destruct (t_peek st o h) as [a|] eqn:Ep; [|done]. unfold gs_clone. destruct (gmm (gc_mem st) !! a) as [[[|n] d]|] eqn:Ea; [done| |done].
    intros [= _ <-]. destruct (may_use M t o h) eqn:Em; [|by left]. right.
    destruct (step_clone st M t th o h a n d HI HF Ht Ep Em Ea) as (cs&E&HI'). rewrite E. simpl. eexists. split; [done|]. exact HI'.
  - destruct (t_peek st o h) as [a|] eqn:Ep; [|done]. unfold gs_child, mbind at 1, gsm_bind at 1, gs_cell.
    destruct (gmm (gc_mem st) !! a) as [[[|n] d]|] eqn:Ea; [done| |done].
    destruct (may_use M t o h) eqn:Em; [|by left]. intros H. right.
    destruct (step_child st M t th o h i a n d HI HF Ht Ep Em Ea) as (cs&E&HI'). rewrite E. simpl. eexists. split; [done|].
    destruct (cslots d !! i) as [x|] eqn:Ex.
    + destruct HI' as (n'&d'&Hx&HI'). unfold mbind, gsm_bind, gs_clone in H. rewrite Hx in H. injection H as _ <-. exact HI'.
    + injection H as _ <-. exact HI'.
  - destruct (t_peek st o h) as [a|] eqn:Ep; [|done]. destruct (gs_read a (gc_mem st)) as [[x|] mem'] eqn:Er; [|done].
    intros [= _ <-]. destruct (may_use M t o h) eqn:Em; [|by left]. right.
    destruct (use_ini _ _ _ _ _ _ HI Ep Em) as (tho&Hto&Hh&_). destruct (mf_var _ HF _ _ _ _ Hto Hh) as (n&d&Ha).
    destruct (step_read st M t o h a n d HI HF Ep Em Ha) as (cs&E&HI'). rewrite E. simpl. eexists. split; [done|]. exact HI'.
  - destruct (g_peek h (gt_env th)) as [a|] eqn:Ep; [|done]. apply peek_Some in Ep. intros [= _ <-].
    destruct (may_take M t h) eqn:Em; [|by left]. right. eexists. split; [done|]. by apply step_drop.
  - destruct (g_peek h (gt_env th)) as [a|] eqn:Ep; [|done]. apply peek_Some in Ep.
    destruct (<[t := GTH (<[h := None]> (gt_env th)) (gt_stk th)]> (gc_thr st) !! u) as [thu|] eqn:Eu; [|done]. intros [= _ <-].
    assert (exists th0, gc_thr st !! u = Some th0 /\ length (gt_env th0) = length (gt_env thu)) as (th0&Hu0&Hlen).
    { apply thr_put in Eu as [[-> ->]|[Hne Eu]]; [|eauto]. exists th. split; [done|]. simpl. by rewrite insert_length. }
    rewrite Hu0. destruct (may_take M t h) eqn:Em; [|by left]. right. eexists. split; [done|]. rewrite Hlen. by apply step_send.
  - destruct (gt_stk th) as [|[a|a] k] eqn:Ek.
    + intros [= _ <-]. right. eauto.
    + unfold t_drop. destruct (gmm (gc_mem st) !! a) as [[[|[|n]] d]|] eqn:Ea; [done| | |done].
      * intros [= _ <-]. right. destruct (drop_touch st M t th a k 0 d HI HF Ht Ek Ea) as (cs&c&E&Hc&HI1). rewrite E. simpl. rewrite Hc. simpl.
        set (V1 := {[length (mo_hist M)]} ∪ mview M t) in *. set (rel := rc_rel c ∪ V1) in *.
        set (M1 := MON _ _ _ _) in HI1.
        assert (Hacc : rc_acc c ⊆ V1 ∪ rel).
        { intros x Hx. destruct (mf_one _ HF _ _ _ _ _ Ea Ht Ek) as (O1&O2&O3&O4).
          assert (Hca : mo_cells M1 !! a = Some (RC (rc_ini c) (rc_acc c) rel)) by (simpl; by rewrite lookup_insert).
          destruct (ri_cov _ _ HI1 a 0 d _ x Ea Hca Hx) as [c' Hc' Hr|u thu h b' U' y0 H0 Hu Hvu Hvs HU' Hy0 HH0|u thu Hu Hkk HV|b2 n2 d2 c2 y H2 Hb2 Hin Hc2 Hy Hh2 HH|(Hu1&Hu2&Hu3)].
          - rewrite Hca in Hc'. injection Hc' as <-. simpl in Hr. set_solver.
          - by destruct (O1 _ _ _ Hu Hvu).
          - rewrite (O2 _ _ Hu Hkk) in HV. change (x ∈ mview (tick t M) t) in HV. rewrite tick_view in HV. fold V1 in HV. set_solver.
          - by destruct (O4 _ _ _ Hb2).
          - exfalso. apply (Hu2 t th Ht). rewrite Ek. left. }
        rewrite decide_True by done. eexists. split; [done|].
        apply (rinv_know st M1 t (V1 ∪ rel)) in HI1.
        -- simpl in HI1. rewrite insert_insert in HI1. eapply (rinv_die _ _ t th a d _ k) in HI1; [exact HI1|done|done|done|done|simpl; by rewrite lookup_insert|].
           simpl. rewrite mview_put. by rewrite decide_True.
        -- apply closed_union.
           ++ pose proof (ri_view _ _ HI1 t) as Hv. change (closed (mo_hist M1) (mview (tick t M) t)) in Hv. rewrite tick_view in Hv. exact Hv.
           ++ apply (ri_rel _ _ HI1 a (RC (rc_ini c) (rc_acc c) rel)). simpl. by rewrite lookup_insert.
        -- change (mview (tick t M) t ⊆ V1 ∪ rel). rewrite tick_view. fold V1. set_solver.
      * intros [= _ <-]. right. destruct (drop_touch st M t th a k (S n) d HI HF Ht Ek Ea) as (cs&c&E&Hc&HI1). rewrite E. simpl. rewrite Hc. simpl.
        eexists. split; [done|]. apply (rinv_count _ _ a (S n) n d (gck (gc_mem st))) in HI1; [|done].
        eapply (rinv_stk _ _ t th k) in HI1; [exact HI1|done|intros f Hf; rewrite Ek; by right|].
        intros x. rewrite Ek. intros [[= ->]|Hx]%elem_of_cons; [right|by left].
        eexists. simpl. rewrite lookup_insert. split; [done|]. simpl. change (mview (tick t M) t ⊆ rc_rel c ∪ ({[length (mo_hist M)]} ∪ mview M t)). rewrite tick_view. set_solver.
    + unfold t_free. destruct (gmm (gc_mem st) !! a) as [[[|n] d]|] eqn:Ea; [|done|done]. intros [= _ <-]. right.
      destruct (ri_free _ _ HI t th a Ht) as (c&Hc&Hs); [rewrite Ek; left|]. rewrite Hc, decide_True by done. eexists. split; [done|].
      pose proof (rinv_tick st t M HI) as HI1. apply (rinv_free st (tick t M) t th a k (gck (gc_mem st)) HI1 HF Ht Ek).
Qed.

(** ** Runs *)
Lemma rinv_sync st M t u : rinv st M ->
  rinv st (MON (mo_hist M) (<[u := mview M t ∪ mview M u]> (mo_view M)) (mo_vars M) (mo_cells M)).
Proof.
  intros HI. apply rinv_know; [done| |set_solver]. apply closed_union; apply (ri_view _ _ HI).
Qed.
Lemma rinv_init n : rinv (t_init n) mon_init.
Proof.
  assert (Hth : forall t th, gc_thr (t_init n) !! t = Some th -> th = GTH [] []).
  { intros t th Ht. simpl in Ht. by apply lookup_replicate_1 in Ht as [-> _]. }
  split; simpl.
  - done.
  - intros t e He. unfold mview in He. simpl in He. rewrite lookup_empty in He. by apply elem_of_empty in He.
  - intros a c Ha. by rewrite lookup_empty in Ha.
  - intros a. rewrite !lookup_empty. split; by intros [? ?].
  - intros t th h a Ht%Hth. by subst.
  - intros t th a Ht%Hth Ha. subst. by apply elem_of_nil in Ha.
  - intros t th a Ht%Hth Ha. subst. by apply elem_of_nil in Ha.
  - intros b m d x Hb. by rewrite lookup_empty in Hb.
  - intros a m d c e Ha. by rewrite lookup_empty in Ha.
Qed.
Lemma r_run_ok al (Hal : galloc_ok al) pr p : forall st M sst gs lkg obs sst',
  trel pr st sst gs lkg -> rinv st M -> ts_run pr (calls p) sst = Some (obs, sst') ->
  r_run al pr p st M = Err Diverge \/
  exists st' M' gs' lkg', r_run al pr p st M = Ok (obs, st', M') /\ trel pr st' sst' gs' lkg' /\ rinv st' M'.
Proof.
  induction p as [|[t [o|u]] p IH]; intros st M sst gs lkg obs sst' HT HI; simpl.
  - intros [= <- <-]. right. eauto 10.
  - destruct (ts_step pr t o sst) as [[b sst1]|] eqn:Es; [|done].
    destruct (ts_run pr (calls p) sst1) as [[bs sst2]|] eqn:Er; [|done]. intros [= <- <-].
    destruct (t_step_ok al pr Hal t o st sst gs lkg b sst1 HT Es) as (st1&gs1&lkg1&E1&HT1).
    destruct (mon_step_ok al Hal pr t o st M b st1 HI (mfacts_of _ _ _ _ _ HT) E1) as [E|(M1&E&HI1)]; rewrite E; simpl; [by left|].
    rewrite E1. simpl. destruct (IH _ _ _ _ _ _ _ HT1 HI1 Er) as [E2|(st2&M2&gs2&lkg2&E2&HT2&HI2)]; rewrite E2; simpl; [by left|].
    right. exists st2, M2, gs2, lkg2. done.
  - intros Er. destruct (IH _ _ _ _ _ _ _ HT (rinv_sync st M t u HI) Er) as [E2|(st2&M2&gs2&lkg2&E2&HT2&HI2)]; [by left|].
    right. exists st2, M2, gs2, lkg2. done.
Qed.

(** ** Without borrows from other threads *)
(** proof device, no counterpart in the code *)
Definition known (st : gcs) (M : mon) : Prop := forall t th h a, gc_thr st !! t = Some th -> gt_env th !! h = Some (Some a) ->
  exists b U, mo_vars M !! (t, h) = Some (b, U) /\ U ⊆ mview M t.
Lemma known_step st st' M M' : known st M -> (forall u, mview M u ⊆ mview M' u) ->
  (forall u thu h a, gc_thr st' !! u = Some thu -> gt_env thu !! h = Some (Some a) ->
     (exists e, mo_vars M' !! (u, h) = Some (e, {[e]}) /\ e ∈ mview M' u) \/
     (exists th0, gc_thr st !! u = Some th0 /\ gt_env th0 !! h = Some (Some a) /\
        (mo_vars M' !! (u, h) = mo_vars M !! (u, h) \/
         exists e, e ∈ mview M' u /\ mo_vars M' !! (u, h) = (fun x => (x.1, {[e]} ∪ x.2)) <$> mo_vars M !! (u, h)))) ->
  known st' M'.
Proof.
  intros HK Hv Hn u thu h a Hu Ha. destruct (Hn u thu h a Hu Ha) as [(e&E&He)|(th0&Ht0&Ha0&[E|(e&He&E)])].
  - exists e, {[e]}. split; [done|]. set_solver.
  - destruct (HK _ _ _ _ Ht0 Ha0) as (b&U&Hb&HU). exists b, U. rewrite E. split; [done|]. specialize (Hv u). set_solver.
  - destruct (HK _ _ _ _ Ht0 Ha0) as (b&U&Hb&HU). exists b, ({[e]} ∪ U). rewrite E, Hb. split; [done|]. specialize (Hv u). set_solver.
Qed.
Lemma known_take st M t th h a : known st M -> gc_thr st !! t = Some th -> gt_env th !! h = Some (Some a) -> may_take M t h = true.
Proof. intros HK Ht Ha. destruct (HK _ _ _ _ Ht Ha) as (b&U&E&HU). unfold may_take. rewrite E. by apply bool_decide_eq_true. Qed.
Lemma move_in {A} hs : forall (env : list (option A)) xs env', g_move hs env = Some (xs, env') ->
  length env' = length env /\ (forall h, h ∈ hs -> exists x, env !! h = Some (Some x)) /\
  (forall h x, env' !! h = Some (Some x) -> env !! h = Some (Some x)).
Proof.
  induction hs as [|h hs IH]; intros env xs env'; simpl.
  - intros [= _ <-]. split; [done|]. split; [|done]. intros h Hh. by apply elem_of_nil in Hh.
  - destruct (env !! h) as [[x|]|] eqn:Eh; [|done|done]. destruct (g_move hs (<[h := None]> env)) as [[xs1 env1]|] eqn:E; [|done].
    intros [= _ <-]. destruct (IH _ _ _ E) as (H1&H2&H3). rewrite insert_length in H1. split; [done|].
    assert (Hins : forall i y, <[h := None]> env !! i = Some (Some y) -> env !! i = Some (Some y)) by (intros i y; rewrite list_lookup_insert_Some; naive_solver).
    split.
    + intros i [->|Hi]%elem_of_cons; [eauto|]. destruct (H2 i Hi) as [y Hy]. eauto.
    + eauto.
Qed.
(** a new variable of thread [t], its old ones perhaps used *)
Lemma known_push st M t th env' oa k' mem' cs vs (e := length (mo_hist M)) :
  known st M -> gc_thr st !! t = Some th -> length env' = length (gt_env th) ->
  (forall h x, env' !! h = Some (Some x) -> gt_env th !! h = Some (Some x)) ->
  (vs = mo_vars M \/ exists h, vs = use e t h (mo_vars M)) ->
  known (GCS mem' (<[t := GTH (env' ++ [oa]) k']> (gc_thr st)))
    (MON (mo_hist (tick t M)) (mo_view (tick t M)) (<[(t, length (gt_env th)) := (e, {[e]})]> vs) cs).
Proof.
  intros HK Ht Hlen Henv Hvs. assert (He : e ∈ mview (tick t M) t) by (rewrite tick_view; unfold e; set_solver).
  eapply known_step; [exact HK|exact (tick_mono t M)|]. simpl. intros u thu h a [[-> ->]|[Hne Hu]]%thr_put Ha; simpl in *.
  - apply lookup_app_Some in Ha as [Ha|[Hle Ha]].
    + right. exists th. split; [done|]. pose proof (Henv _ _ Ha) as Ha'. split; [done|]. apply lookup_lt_Some in Ha'.
      rewrite lookup_insert_ne by (intros [= E]; lia). destruct Hvs as [->|[h' ->]]; [by left|]. unfold use.
      destruct (decide (h' = h)) as [->|Hne]; [|left; rewrite lookup_alter_ne; [done|congruence]].
      right. exists e. split; [done|]. by rewrite lookup_alter.
    + left. apply list_lookup_singleton_Some in Ha as [Hz _]. assert (h = length (gt_env th)) as -> by lia. rewrite lookup_insert. eauto.
  - right. exists thu. split; [done|]. split; [done|]. left. rewrite lookup_insert_ne by congruence. destruct Hvs as [->|[h' ->]]; [done|].
    unfold use. rewrite lookup_alter_ne; [done|congruence].
Qed.
(** the variables of thread [t] become fewer, or have been used *)
Lemma known_less st M t th env' k' mem' cs vs (e := length (mo_hist M)) V :
  known st M -> gc_thr st !! t = Some th -> mview (tick t M) t ⊆ V ->
  (forall h x, env' !! h = Some (Some x) -> gt_env th !! h = Some (Some x)) ->
  (vs = mo_vars M \/ exists h, vs = use e t h (mo_vars M)) ->
  known (GCS mem' (<[t := GTH env' k']> (gc_thr st))) (MON (mo_hist (tick t M)) (<[t := V]> (mo_view M)) vs cs).
Proof.
  intros HK Ht HV Henv Hvs. assert (He : e ∈ V) by (apply HV; rewrite tick_view; unfold e; set_solver).
  eapply known_step; [exact HK| |].
  - intros u. rewrite mview_put. destruct (decide (t = u)) as [->|Hne]; [|done]. pose proof (tick_mono u M u). set_solver.
  - simpl. intros u thu h a [[-> ->]|[Hne Hu]]%thr_put Ha; simpl in *; right.
    + exists th. split; [done|]. split; [by apply Henv|]. destruct Hvs as [->|[h' ->]]; [by left|]. unfold use.
      destruct (decide (h' = h)) as [->|Hne]; [|left; rewrite lookup_alter_ne; [done|congruence]].
      right. exists e. rewrite mview_put, decide_True by done. split; [done|]. by rewrite lookup_alter.
    + exists thu. split; [done|]. split; [done|]. left. destruct Hvs as [->|[h' ->]]; [done|]. unfold use. rewrite lookup_alter_ne; [done|congruence].
Qed.
Lemma touch_err e V x cs er : touch e V x cs = Err er -> er = UB.
Proof. unfold touch. destruct (cs !! x) as [c|]; [|by intros [= <-]]. destruct (decide _); [done|by intros [= <-]]. Qed.
Lemma touches_err e V xs : forall cs er, touches e V xs cs = Err er -> er = UB.
Proof.
  induction xs as [|x xs IH]; intros cs er; simpl; [done|]. destruct (touch e V x cs) as [cs1|er1] eqn:E; simpl; [apply IH|].
  intros [= <-]. by eapply touch_err.
Qed.
Lemma mon_known al pr t o st M b st' : known st M -> no_borrow t (RDo o) -> t_step al pr t o st = Ok (b, st') ->
  match mon_step al t o st M with Ok M' => known st' M' | Err e => e = UB end.
Proof.
  intros HK Hb. unfold t_step, mon_step. destruct (gc_thr st !! t) as [th|] eqn:Ht; [|done].
  destruct o as [k s|k hs|o h|o h i|o h|h|h u|]; simpl in Hb.
  - unfold gs_token, gs_alloc. intros [= _ <-]. apply known_push; [done|done|done|done|by left].
  - destruct (g_move hs (gt_env th)) as [[xs env']|] eqn:Em; [|done]. destruct (move_in _ _ _ _ Em) as (Hlen&Hin&Henv).
    assert (forallb (may_take M t) hs = true) as ->.
    { apply forallb_forall. intros h Hh. destruct (Hin h) as [x Hx]; [by apply elem_of_list_In|]. by eapply known_take. }
    destruct (t_new al pr k xs (gc_mem st)) as [[r|] mem'] eqn:En; [|done]. intros H.
    destruct (touches _ _ _ _) as [cs|er] eqn:E; simpl; [|by eapply touches_err].
    destruct r; injection H as _ <-; (apply known_push; [done|done|done|done|by left]).
  - subst o. destruct (t_peek st t h) as [a|] eqn:Ep; [|done]. unfold gs_clone. destruct (gmm (gc_mem st) !! a) as [[[|n] d]|] eqn:Ea; [done| |done].
    intros [= _ <-]. unfold may_use. rewrite decide_True by done.
    destruct (touch _ _ _ _) as [cs|er] eqn:E; simpl; [|by eapply touch_err]. apply known_push; [done|done|done|done|right; eauto].
  - subst o. destruct (t_peek st t h) as [a|] eqn:Ep; [|done]. unfold may_use. rewrite decide_True by done. intros H.
    destruct (touches _ _ _ _) as [cs|er] eqn:E; cbn [mbind res_bind]; [|by eapply touches_err].
    destruct (gs_child a i (gc_mem st)) as [[[x|]|] mem'] eqn:Ec; [| |done]; injection H as _ <-; (apply known_push; [done|done|done|done|right; eauto]).
  - subst o. destruct (t_peek st t h) as [a|] eqn:Ep; [|done]. destruct (gs_read a (gc_mem st)) as [[x|] mem'] eqn:Er; [|done].
    intros [= _ <-]. unfold may_use. rewrite decide_True by done.
    destruct (touches _ _ _ _) as [cs|er] eqn:E; cbn [mbind res_bind]; [|by eapply touches_err].
    assert (st = GCS (gc_mem st) (<[t := GTH (gt_env th) (gt_stk th)]> (gc_thr st))) as Hst.
    { destruct st as [mm tt]. simpl in *. f_equal. rewrite list_insert_id; [done|]. rewrite Ht. by destruct th. }
    rewrite Hst at 1. eapply (known_less st M t th); [done|done| |done|right; eauto]. rewrite tick_view. done.
  - destruct (g_peek h (gt_env th)) as [a|] eqn:Ep; [|done]. apply peek_Some in Ep. intros [= _ <-].
    rewrite (known_take _ _ _ _ _ _ HK Ht Ep). eapply (known_less st M t th); [done|done|by rewrite tick_view| |by left].
    intros i x. rewrite list_lookup_insert_Some. naive_solver.
  - destruct (g_peek h (gt_env th)) as [a|] eqn:Ep; [|done]. apply peek_Some in Ep.
    destruct (<[t := GTH (<[h := None]> (gt_env th)) (gt_stk th)]> (gc_thr st) !! u) as [thu|] eqn:Eu; [|done]. intros [= _ <-].
    assert (exists th0, gc_thr st !! u = Some th0 /\ length (gt_env th0) = length (gt_env thu) /\ forall i x, gt_env thu !! i = Some (Some x) -> gt_env th0 !! i = Some (Some x)) as (th0&Hu0&Hlen&Henv).
    { apply thr_put in Eu as [[-> ->]|[Hne Eu]]; [|eauto]. exists th. split; [done|]. simpl. split; [by rewrite insert_length|].
      intros i x. rewrite list_lookup_insert_Some. naive_solver. }
    rewrite Hu0, (known_take _ _ _ _ _ _ HK Ht Ep).
    set (e := length (mo_hist M)). set (V1 := {[e]} ∪ mview M t).
    eapply known_step; [exact HK| |].
    + intros v. rewrite mview_put. destruct (decide (u = v)) as [->|Hne]; [set_solver|].
      destruct (decide (t = v)) as [->|Hne']; [rewrite lookup_insert; simpl; unfold V1; set_solver|rewrite lookup_insert_ne by done; done].
    + cbn [gc_thr mo_vars]. intros v thv i x [[-> ->]|[Hne Hv]]%thr_put Hx; cbn [gt_env] in Hx.
      * apply lookup_app_Some in Hx as [Hx|[Hle Hx]].
        -- right. exists th0. split; [done|]. split; [by apply Henv|]. left. rewrite lookup_insert_ne; [done|]. intros [= E]. apply lookup_lt_Some in Hx. lia.
        -- left. apply list_lookup_singleton_Some in Hx as [Hz _]. assert (i = length (gt_env th0)) as -> by lia. exists e. rewrite lookup_insert.
           split; [done|]. rewrite mview_put, decide_True by done. unfold V1. set_solver.
      * right. apply thr_put in Hv as [[-> ->]|[Hne' Hv]].
        -- exists th. split; [done|]. split; [|left; rewrite lookup_insert_ne; [done|congruence]]. simpl in Hx. apply list_lookup_insert_Some in Hx. naive_solver.
        -- exists thv. split; [done|]. split; [done|]. left. rewrite lookup_insert_ne; [done|congruence].
  - destruct (gt_stk th) as [|[a|a] k] eqn:Ek.
    + by intros [= _ <-].
    + destruct (t_drop a (gc_mem st)) as [[fs|] mem'] eqn:Ed; [|done]. intros [= _ <-].
      destruct (touch _ _ _ _) as [cs|er] eqn:E; cbn [mbind res_bind]; [|by eapply touch_err].
      destruct (cs !! a) as [c|]; [|done]. destruct (gmm (gc_mem st) !! a) as [[n d]|]; [|done].
      destruct (n =? 1).
      * destruct (decide _); [|done]. eapply (known_less st M t th); [done|done| |done|by left]. rewrite tick_view. set_solver.
      * eapply (known_less st M t th); [done|done|by rewrite tick_view|done|by left].
    + destruct (t_free a (gc_mem st)) as [[fs|] mem'] eqn:Ed; [|done]. intros [= _ <-].
      destruct (mo_cells M !! a) as [c|]; [|done]. destruct (decide _); [|done]. eapply (known_less st M t th); [done|done|by rewrite tick_view|done|by left].
Qed.
Lemma known_sync st M t u : known st M ->
  known st (MON (mo_hist M) (<[u := mview M t ∪ mview M u]> (mo_view M)) (mo_vars M) (mo_cells M)).
Proof.
  intros HK v th h a Hv Ha. destruct (HK _ _ _ _ Hv Ha) as (b&U&E&HU). exists b, U. split; [done|].
  rewrite mview_put. destruct (decide (u = v)) as [->|Hne]; [set_solver|done].
Qed.
Lemma r_run_known al (Hal : galloc_ok al) pr p : forall st M sst gs lkg obs sst',
  trel pr st sst gs lkg -> rinv st M -> known st M -> Forall (fun x => no_borrow x.1 x.2) p ->
  ts_run pr (calls p) sst = Some (obs, sst') ->
  exists st' M', r_run al pr p st M = Ok (obs, st', M').
Proof.
  induction p as [|[t [o|u]] p IH]; intros st M sst gs lkg obs sst' HT HI HK HN; simpl.
  - intros [= <- <-]. eauto.
  - apply Forall_cons in HN as [HN0 HN]. simpl in HN0.
    destruct (ts_step pr t o sst) as [[b sst1]|] eqn:Es; [|done].
    destruct (ts_run pr (calls p) sst1) as [[bs sst2]|] eqn:Er; [|done]. intros [= <- <-].
    destruct (t_step_ok al pr Hal t o st sst gs lkg b sst1 HT Es) as (st1&gs1&lkg1&E1&HT1).
    pose proof (mon_known al pr t o st M b st1 HK HN0 E1) as Hkn.
    destruct (mon_step_ok al Hal pr t o st M b st1 HI (mfacts_of _ _ _ _ _ HT) E1) as [E|(M1&E&HI1)]; rewrite E in Hkn |- *; simpl; [done|].
    rewrite E1. simpl. destruct (IH _ _ _ _ _ _ _ HT1 HI1 Hkn HN Er) as (st2&M2&E2). rewrite E2. simpl. eauto.
  - apply Forall_cons in HN as [HN0 HN]. intros Er. by apply (IH _ _ _ _ _ _ _ HT (rinv_sync st M t u HI) (known_sync st M t u HK) HN Er).
Qed.
Lemma known_init n : known (t_init n) mon_init.
Proof. intros t th h a Ht. simpl in Ht. apply lookup_replicate_1 in Ht as [-> _]. done. Qed.

(** ** What is behind a handle stays as it is *)
Lemma step_data al (Hal : galloc_ok al) pr t o st b st' : t_step al pr t o st = Ok (b, st') ->
  forall x n c, gmm (gc_mem st) !! x = Some (S n, c) ->
    (exists n', gmm (gc_mem st') !! x = Some (S n', c)) \/
    (n = 0 /\ exists th k, gc_thr st !! t = Some th /\ gt_stk th = FDrop x :: k).
Proof.
  unfold t_step. destruct (gc_thr st !! t) as [th|] eqn:Ht; [|done]. intros Hs x n c Hx.
  assert (Hnew : forall v, <[al (gck (gc_mem st)) (dom (gmm (gc_mem st))) := v]> (gmm (gc_mem st)) !! x = Some (S n, c)).
  { intros v. rewrite lookup_insert_ne; [done|]. intros E. pose proof (new_fresh al Hal st) as Hf. rewrite E in Hf. congruence. }
  assert (Hcl : forall a u mem', gs_clone a (gc_mem st) = (Ok u, mem') -> exists n', gmm mem' !! x = Some (S n', c)).
  { intros a u mem'. unfold gs_clone. destruct (gmm (gc_mem st) !! a) as [[[|n0] d]|] eqn:Ea; [done| |done]. intros [= _ <-]. simpl.
    destruct (decide (a = x)) as [->|Hne]; [|rewrite lookup_insert_ne by done; eauto]. rewrite Hx in Ea. injection Ea as <- <-. rewrite lookup_insert. eauto. }
  destruct o as [k s|k hs|o h|o h i|o h|h|h u|].
  - unfold gs_token, gs_alloc in Hs. injection Hs as _ <-. left. exists n. apply Hnew.
  - destruct (g_move hs (gt_env th)) as [[xs env']|]; [|done]. destruct (t_new al pr k xs (gc_mem st)) as [[r|] mem'] eqn:En; [|done].
    destruct (new_shape _ _ _ _ _ _ _ En) as (w&tl&->&_). left. exists n. destruct r; injection Hs as _ <-; apply Hnew.
  - destruct (t_peek st o h) as [a|]; [|done]. destruct (gs_clone a (gc_mem st)) as [[u|] mem'] eqn:E; [|done]. injection Hs as _ <-. left. by eapply Hcl.
  - destruct (t_peek st o h) as [a|]; [|done]. unfold gs_child, mbind at 1, gsm_bind at 1, gs_cell in Hs.
    destruct (gmm (gc_mem st) !! a) as [[[|m] d]|]; [done| |done]. destruct (cslots d !! i) as [y|].
    + unfold mbind, gsm_bind in Hs. destruct (gs_clone y (gc_mem st)) as [[u|] mem'] eqn:E; [|done]. injection Hs as _ <-. left. by eapply Hcl.
    + injection Hs as _ <-. left. eauto.
  - destruct (t_peek st o h) as [a|]; [|done]. destruct (gs_read a (gc_mem st)) as [[y|] mem']; [|done]. injection Hs as _ <-. left. eauto.
  - destruct (g_peek h (gt_env th)); [|done]. injection Hs as _ <-. left. eauto.
  - destruct (g_peek h (gt_env th)); [|done]. destruct (_ !! u); [|done]. injection Hs as _ <-. left. eauto.
  - destruct (gt_stk th) as [|[a|a] k] eqn:Ek.
    + injection Hs as _ <-. left. eauto.
    + unfold t_drop in Hs. destruct (decide (a = x)) as [->|Hne].
      * rewrite Hx in Hs. destruct n as [|n]; [right; eauto|]. injection Hs as _ <-. left. simpl. rewrite lookup_insert. eauto.
      * left. exists n. destruct (gmm (gc_mem st) !! a) as [[[|[|m]] d]|]; [done| | |done]; injection Hs as _ <-; simpl; by rewrite lookup_insert_ne.
    + unfold t_free in Hs. destruct (gmm (gc_mem st) !! a) as [[[|m] d]|] eqn:Ea; [|done|done]. injection Hs as _ <-. left. exists n. simpl.
      rewrite lookup_delete_ne; [done|]. intros ->. congruence.
Qed.
Lemma step_keeps al pr t o st b st' u h a : t_step al pr t o st = Ok (b, st') -> t_peek st u h = Some a -> keeps u h (t, o) -> t_peek st' u h = Some a.
Proof.
  unfold t_peek. intros Hs Hp Hk. unfold keeps in Hk. simpl in Hk.
  assert (Hput : forall mem' env' k' th, gc_thr st !! t = Some th -> (forall i x, t = u -> i = h -> gt_env th !! i = Some (Some x) -> env' !! i = Some (Some x)) ->
            match gc_thr (GCS mem' (<[t := GTH env' k']> (gc_thr st))) !! u with Some th => g_peek h (gt_env th) | None => None end = Some a).
  { intros mem' env' k' th Ht He. simpl. destruct (decide (t = u)) as [->|Hne]; [|by rewrite list_lookup_insert_ne].
    rewrite list_lookup_insert by (by eapply lookup_lt_Some). simpl. rewrite Ht in Hp. apply peek_Some in Hp. apply peek_Some. by apply He. }
  unfold t_step in Hs. destruct (gc_thr st !! t) as [th|] eqn:Ht; [|done].
  assert (Happ : forall y i x, t = u -> i = h -> gt_env th !! i = Some (Some x) -> (gt_env th ++ [y]) !! i = Some (Some x)) by (intros; by apply lookup_app_l_Some).
  destruct o as [k s|k hs|o h'|o h' i|o h'|h'|h' v|].
  - unfold gs_token, gs_alloc in Hs. injection Hs as _ <-. eapply Hput; [done|auto].
  - destruct (g_move hs (gt_env th)) as [[xs env']|] eqn:Em; [|done]. destruct (t_new al pr k xs (gc_mem st)) as [[r|] mem'] eqn:En; [|done].
    assert (Hmv : h ∉ hs -> forall x, gt_env th !! h = Some (Some x) -> env' !! h = Some (Some x)).
    { clear -Em. revert xs env' Em. generalize (gt_env th). induction hs as [|y hs IH]; intros env xs env'; simpl; [by intros [= _ <-]|].
      destruct (env !! y) as [[z|]|]; [|done|done]. destruct (g_move hs (<[y := None]> env)) as [[xs1 env1]|] eqn:E; [|done]. intros [= _ <-] Hni x Hx.
      apply not_elem_of_cons in Hni as [Hne Hni]. eapply IH; [done|done|]. by rewrite list_lookup_insert_ne. }
    destruct r; injection Hs as _ <-; (eapply Hput; [done|]); intros i x -> -> Hx; apply lookup_app_l_Some; apply Hmv; [by apply Hk|done|by apply Hk|done].
  - destruct (match gc_thr st !! o with Some th => g_peek h' (gt_env th) | None => None end) as [a'|] eqn:E'; unfold t_peek in Hs; rewrite E' in Hs; [|done].
    destruct (gs_clone a' (gc_mem st)) as [[z|] mem'] eqn:E; [|done]. injection Hs as _ <-. eapply Hput; [done|auto].
  - destruct (t_peek st o h') as [a'|] eqn:E'; [|done]. destruct (gs_child a' i (gc_mem st)) as [[[z|]|] mem'] eqn:E; [| |done]; injection Hs as _ <-; (eapply Hput; [done|auto]).
  - destruct (t_peek st o h') as [a'|] eqn:E'; [|done]. destruct (gs_read a' (gc_mem st)) as [[z|] mem'] eqn:E; [|done]. by injection Hs as _ <-.
  - destruct (g_peek h' (gt_env th)); [|done]. injection Hs as _ <-. eapply Hput; [done|]. intros i x -> -> Hx. rewrite list_lookup_insert_ne; [done|by apply Hk].
  - destruct (g_peek h' (gt_env th)); [|done]. destruct (_ !! v) as [thv|] eqn:Ev; [|done]. injection Hs as _ <-.
    pose proof (Hput (gc_mem st) (<[h' := None]> (gt_env th)) (gt_stk th) th eq_refl ltac:(intros i x -> -> Hx; rewrite list_lookup_insert_ne; [done|by apply Hk])) as Hp1.
    simpl in Hp1 |- *. destruct (decide (v = u)) as [->|Hne]; [|by rewrite list_lookup_insert_ne].
    rewrite list_lookup_insert by (by eapply lookup_lt_Some). simpl. rewrite Ev in Hp1. apply peek_Some in Hp1. apply peek_Some. by apply lookup_app_l_Some.
  - destruct (gt_stk th) as [|[a'|a'] k] eqn:Ek.
    + by injection Hs as _ <-.
    + destruct (t_drop a' (gc_mem st)) as [[fs|] mem']; [|done]. injection Hs as _ <-. eapply Hput; [done|auto].
    + destruct (t_free a' (gc_mem st)) as [[fs|] mem']; [|done]. injection Hs as _ <-. eapply Hput; [done|auto].
Qed.
Lemma reach_last m (a x : addr) : reaches m a x -> x = a \/ exists b n c, m !! b = Some (n, c) /\ x ∈ cslots c.
Proof.
  induction 1 as [a|a n c y b Ha Hy Hr IH]; [by left|]. right. destruct IH as [->|?]; [eauto|done].
Qed.
Lemma run_stable al (Hal : galloc_ok al) pr o h a q : forall st sst gs lkg obs sst' st',
  trel pr st sst gs lkg -> ts_run pr q sst = Some (obs, sst') -> t_run al pr q st = Ok (obs, st') ->
  t_peek st o h = Some a -> Forall (keeps o h) q ->
  t_peek st' o h = Some a /\
  forall x : addr, reaches (gmm (gc_mem st)) a x -> exists m m' c, gmm (gc_mem st) !! x = Some (S m, c) /\ gmm (gc_mem st') !! x = Some (S m', c).
Proof.
  induction q as [|[t act] q IH]; intros st sst gs lkg obs sst' st' HT; simpl.
  - intros _ [= _ <-] Hp _. split; [done|]. pose proof (mfacts_of _ _ _ _ _ HT) as HF. intros x Hr.
    assert (exists n c, gmm (gc_mem st) !! a = Some (S n, c)) as Ha.
    { unfold t_peek in Hp. destruct (gc_thr st !! o) as [tho|] eqn:E; [|done]. apply peek_Some in Hp. by eapply mf_var. }
    clear Hp. induction Hr as [a|a n c y b Hn Hy Hr IHr]; [destruct Ha as (n&c&Ha); eauto|]. destruct Ha as (n'&c'&Ha). rewrite Ha in Hn. injection Hn as _ <-.
    apply IHr. by eapply mf_slot.
  - destruct (ts_step pr t act sst) as [[b1 sst1]|] eqn:Es; [|done]. destruct (ts_run pr q sst1) as [[bs sst2]|] eqn:Er; [|done]. intros [= <- <-].
    destruct (t_step_ok al pr Hal t act st sst gs lkg b1 sst1 HT Es) as (st1&gs1&lkg1&E1&HT1). rewrite E1. simpl.
    destruct (t_run al pr q st1) as [[bs' st2]|] eqn:E2; simpl; [|done]. intros [= <- <-] Hp [Hk Hks]%Forall_cons.
    pose proof (step_keeps _ _ _ _ _ _ _ _ _ _ E1 Hp Hk) as Hp1.
    destruct (IH _ _ _ _ _ _ _ HT1 Er E2 Hp1 Hks) as [Hp2 Hst]. split; [done|]. pose proof (mfacts_of _ _ _ _ _ HT) as HF.
    assert (exists n c, gmm (gc_mem st) !! a = Some (S n, c)) as Ha.
    { unfold t_peek in Hp. destruct (gc_thr st !! o) as [tho|] eqn:E; [|done]. apply peek_Some in Hp. by eapply mf_var. }
    assert (Hkeep : forall x, reaches (gmm (gc_mem st)) a x -> forall n c, gmm (gc_mem st) !! x = Some (S n, c) -> exists n', gmm (gc_mem st1) !! x = Some (S n', c)).
    { intros x Hr n c Hx. destruct (step_data al Hal _ _ _ _ _ _ E1 x n c Hx) as [?|(->&th&k&Ht&Hk0)]; [done|]. exfalso.
      destruct (mf_one _ HF _ _ _ _ _ Hx Ht Hk0) as (O1&_&_&O4). destruct (reach_last _ _ _ Hr) as [->|(b&n&c'&Hb&Hin)]; [|by apply (O4 b n c' Hb)].
      unfold t_peek in Hp. destruct (gc_thr st !! o) as [tho|] eqn:E; [|done]. apply peek_Some in Hp. by apply (O1 _ _ _ E Hp). }
    assert (Hreach : forall x, reaches (gmm (gc_mem st)) a x -> reaches (gmm (gc_mem st1)) a x /\ exists n c, gmm (gc_mem st) !! x = Some (S n, c)).
    { assert (H : forall y x, reaches (gmm (gc_mem st)) y x -> reaches (gmm (gc_mem st)) a y -> (exists n c, gmm (gc_mem st) !! y = Some (S n, c)) ->
                reaches (gmm (gc_mem st1)) y x /\ exists n c, gmm (gc_mem st) !! x = Some (S n, c)).
      { intros y x Hr. induction Hr as [y|y n c z b Hn Hz Hr IHr]; intros Hay Hy; [split; [constructor|done]|].
        destruct Hy as (n'&c'&Hy). rewrite Hy in Hn. injection Hn as <- <-. destruct (Hkeep _ Hay _ _ Hy) as (n''&Hy1).
        destruct IHr as [Hr1 Hl]; [|by eapply mf_slot|].
        - clear -Hay Hy Hz. induction Hay as [w|w m d v u Hw Hv Hr IHw]; [by eapply reaches_step; [done|done|constructor]|eapply reaches_step; [done|done|by apply IHw]].
        - split; [by eapply reaches_step|done]. }
      intros x Hr. apply H; [done|constructor|done]. }
    intros x Hr. destruct (Hreach x Hr) as (Hr1&n&c&Hx). destruct (Hkeep x Hr n c Hx) as (n1&Hx1).
    destruct (Hst x Hr1) as (m&m'&c'&Hm&Hm'). rewrite Hx1 in Hm. injection Hm as <- <-. eauto.
Qed.
