(** * Lemmas on data races *)
From Verif Require Export Races.
Local Open Scope nat_scope.

(** proof device, no counterpart in the code *)
Definition closed (hist : list (gset nat)) (V : gset nat) : Prop :=
  forall e, e ∈ V -> exists H, hist !! e = Some H /\ H ⊆ V.
(** nobody that can still be dropped points to [a]: it leaked *)
(** proof device, no counterpart in the code *)
Definition unref (st : gcs) (a : addr) : Prop :=
  (forall t th h, gc_thr st !! t = Some th -> gt_env th !! h <> Some (Some a)) /\
  (forall t th, gc_thr st !! t = Some th -> FDrop a ∉ gt_stk th) /\
  (forall b n d, gmm (gc_mem st) !! b = Some (n, d) -> a ∉ cslots d).
(** why event [e] will have happened before [a] is destroyed *)
(** proof device, no counterpart in the code *)
Inductive cover (st : gcs) (M : mon) (a : addr) (e : nat) : Prop :=
| cov_rel c : mo_cells M !! a = Some c -> e ∈ rc_rel c -> cover st M a e
| cov_var t th h b U x H : gc_thr st !! t = Some th -> gt_env th !! h = Some (Some a) -> mo_vars M !! (t, h) = Some (b, U) ->
    x ∈ U -> mo_hist M !! x = Some H -> e ∈ H -> cover st M a e
| cov_pend t th : gc_thr st !! t = Some th -> FDrop a ∈ gt_stk th -> e ∈ mview M t -> cover st M a e
| cov_slot b n d c x H : gmm (gc_mem st) !! b = Some (S n, d) -> a ∈ cslots d -> mo_cells M !! b = Some c -> x ∈ rc_acc c ->
    mo_hist M !! x = Some H -> e ∈ H -> cover st M a e
| cov_none : unref st a -> cover st M a e.
(** proof device, no counterpart in the code *)
Record rinv (st : gcs) (M : mon) : Prop := {
  ri_hist : forall e H, mo_hist M !! e = Some H -> e ∈ H /\ closed (mo_hist M) H;
  ri_view : forall t, closed (mo_hist M) (mview M t);
  ri_rel : forall a c, mo_cells M !! a = Some c -> closed (mo_hist M) (rc_rel c);
  ri_dom : forall a, is_Some (mo_cells M !! a) <-> is_Some (gmm (gc_mem st) !! a);
  ri_var : forall t th h a, gc_thr st !! t = Some th -> gt_env th !! h = Some (Some a) ->
    exists b U c H, mo_vars M !! (t, h) = Some (b, U) /\ b ∈ mview M t /\ mo_cells M !! a = Some c /\
      mo_hist M !! b = Some H /\ rc_ini c ∈ H;
  ri_pend : forall t th a, gc_thr st !! t = Some th -> FDrop a ∈ gt_stk th ->
    exists c, mo_cells M !! a = Some c /\ rc_ini c ∈ mview M t;
  ri_free : forall t th a, gc_thr st !! t = Some th -> FFree a ∈ gt_stk th ->
    exists c, mo_cells M !! a = Some c /\ rc_acc c ⊆ mview M t;
  ri_slot : forall b n d x, gmm (gc_mem st) !! b = Some (S n, d) -> x ∈ cslots d ->
    exists cb cx H, mo_cells M !! b = Some cb /\ mo_cells M !! x = Some cx /\ mo_hist M !! rc_ini cb = Some H /\ rc_ini cx ∈ H;
  ri_cov : forall a n d c e, gmm (gc_mem st) !! a = Some (S n, d) -> mo_cells M !! a = Some c -> e ∈ rc_acc c -> cover st M a e
}.
(** facts about the memory, from the invariant of C84 *)
(** proof device, no counterpart in the code *)
Record mfacts (st : gcs) : Prop := {
  mf_var : forall t th h a, gc_thr st !! t = Some th -> gt_env th !! h = Some (Some a) -> exists n d, gmm (gc_mem st) !! a = Some (S n, d);
  mf_pend : forall t th a, gc_thr st !! t = Some th -> FDrop a ∈ gt_stk th -> exists n d, gmm (gc_mem st) !! a = Some (S n, d);
  mf_free : forall t th a, gc_thr st !! t = Some th -> FFree a ∈ gt_stk th -> exists d, gmm (gc_mem st) !! a = Some (0, d);
  mf_dead : forall a d, gmm (gc_mem st) !! a = Some (0, d) -> cslots d = [];
  mf_slot : forall b n d x, gmm (gc_mem st) !! b = Some (S n, d) -> x ∈ cslots d -> exists n' d', gmm (gc_mem st) !! x = Some (S n', d');
  mf_one : forall t th a k d, gmm (gc_mem st) !! a = Some (1, d) -> gc_thr st !! t = Some th -> gt_stk th = FDrop a :: k ->
    (forall t' th' h, gc_thr st !! t' = Some th' -> gt_env th' !! h <> Some (Some a)) /\
    (forall t' th', gc_thr st !! t' = Some th' -> FDrop a ∈ gt_stk th' -> t' = t) /\ FDrop a ∉ k /\
    (forall b n d, gmm (gc_mem st) !! b = Some (n, d) -> a ∉ cslots d);
  mf_frees : forall t th a k, gc_thr st !! t = Some th -> gt_stk th = FFree a :: k ->
    (forall t' th', gc_thr st !! t' = Some th' -> FFree a ∈ gt_stk th' -> t' = t) /\ FFree a ∉ k
}.

(** ** The memory *)
Lemma concat_occ {A} (f : A -> list addr) (l : list A) t x a :
  l !! t = Some x -> occ a (f x) <= occ a (concat (map f l)).
Proof.
  revert t. induction l as [|y l IH]; intros [|t]; simpl; [done|done| |]; rewrite occ_app.
  - intros [= ->]. lia.
  - intros H. specialize (IH t H). lia.
Qed.
Lemma concat_occ2 {A} (f : A -> list addr) (l : list A) t u x y a : t <> u ->
  l !! t = Some x -> l !! u = Some y -> occ a (f x) + occ a (f y) <= occ a (concat (map f l)).
Proof.
  revert t u. induction l as [|z l IH]; intros [|t] [|u] Hne; simpl; [done..| | |]; rewrite ?occ_app.
  - intros [= ->] H. pose proof (concat_occ f l u y a H). lia.
  - intros H [= ->]. pose proof (concat_occ f l t x a H). lia.
  - intros H1 H2. specialize (IH t u ltac:(lia) H1 H2). lia.
Qed.
Lemma drop_in a k : FDrop a ∈ k <-> a ∈ filter_map (fun f => match f with FDrop a => Some a | FFree _ => None end) k.
Proof.
  induction k as [|[b|b] k IH]; simpl; [by rewrite !elem_of_nil| |].
  - rewrite !elem_of_cons, IH. naive_solver.
  - rewrite elem_of_cons, IH. naive_solver.
Qed.
Lemma free_in a k : FFree a ∈ k <-> a ∈ filter_map (fun f => match f with FFree a => Some a | FDrop _ => None end) k.
Proof.
  induction k as [|[b|b] k IH]; simpl; [by rewrite !elem_of_nil| |].
  - rewrite elem_of_cons, IH. naive_solver.
  - rewrite !elem_of_cons, IH. naive_solver.
Qed.
Lemma handle_in (env : list (option addr)) h a : env !! h = Some (Some a) -> a ∈ live_handles env.
Proof.
  unfold live_handles. revert h. induction env as [|[b|] env IH]; intros [|h]; simpl; [done..| | | |].
  - intros [= ->]. left.
  - intros H. right. by eapply IH.
  - done.
  - intros H. by eapply IH.
Qed.
Lemma slot_refs (m : gmem) b n d a : m !! b = Some (n, d) -> a ∈ cslots d -> 0 < pointers_to m a.
Proof.
  intros Hb Ha. rewrite pointers_to_refs, <-occ_pos. unfold refs. apply elem_of_list_In, in_concat. exists (cslots d).
  split; [|by apply elem_of_list_In]. apply in_map_iff. exists (b, (n, d)). split; [done|]. by apply elem_of_list_In, elem_of_map_to_list.
Qed.
Lemma mfacts_of pr st sst gs lkg : trel pr st sst gs lkg -> mfacts st.
Proof.
  intros HT. pose proof (pointers_of _ _ _ _ _ HT) as Hp. pose proof (to_free_of _ _ _ _ _ HT) as Hf.
  pose proof HT as [_ _ Hi Hd Hnd _]. rewrite <-Hf in Hd, Hnd.
  assert (Hlive : forall a, a ∈ all_handles st ++ to_drop st -> exists n d, gmm (gc_mem st) !! a = Some (S n, d)).
  { intros a. rewrite Hp. intros (g&->&Hg)%elem_of_map.
    assert (stored (gmm (gc_mem st)) g) as [[n Hn] _]%stored_inv; [|eauto].
    eapply stored_in; [done|]. apply elem_of_app. by left. }
  assert (Hv : forall t th h a, gc_thr st !! t = Some th -> gt_env th !! h = Some (Some a) -> a ∈ all_handles st).
  { intros t th h a Ht Ha. apply handle_in in Ha. unfold all_handles. rewrite occ_pos in *.
    pose proof (concat_occ (fun th => live_handles (gt_env th)) _ _ _ a Ht) as Ho. cbv beta in Ho. lia. }
  assert (Hpd : forall t th a, gc_thr st !! t = Some th -> FDrop a ∈ gt_stk th -> a ∈ to_drop st).
  { intros t th a Ht Ha. apply drop_in in Ha. unfold to_drop. rewrite occ_pos in *.
    pose proof (concat_occ (fun th => filter_map (fun f => match f with FDrop a => Some a | FFree _ => None end) (gt_stk th)) _ _ _ a Ht) as Ho. cbv beta in Ho. lia. }
  split.
  - intros t th h a Ht Ha. apply Hlive, elem_of_app. left. by eapply Hv.
  - intros t th a Ht Ha. apply Hlive, elem_of_app. right. by eapply Hpd.
  - intros t th a Ht Ha. apply Hd. apply free_in in Ha. unfold to_free. rewrite occ_pos in *.
    pose proof (concat_occ (fun th => filter_map (fun f => match f with FFree a => Some a | FDrop _ => None end) (gt_stk th)) _ _ _ a Ht) as Ho. cbv beta in Ho. lia.
  - intros a d Ha. by eapply (gi_dead _ _ Hi).
  - intros b n d x Hb Hx. destruct (gi_stored _ _ Hi _ _ _ Hb) as (g&<-&Hg). apply stored_inv in Hg as [[n' Hn] K].
    rewrite Hn in Hb. injection Hb as _ <-. rewrite cslots_of in Hx. apply elem_of_map in Hx as (y&->&Hy).
    rewrite Forall_forall in K. apply K in Hy. apply stored_inv in Hy as [[n2 Hn2] _]. eauto.
  - intros t th a k d Ha Ht Hk.
    assert (Hc : occ a (all_handles st) + occ a (to_drop st) + pointers_to (gmm (gc_mem st)) a <= 1).
    { pose proof (gi_count _ _ Hi _ _ _ Ha) as Hc. rewrite pointers_to_refs. rewrite occ_app, map_app, occ_app, <-(occ_perm _ _ _ Hp), occ_app in Hc. lia. }
    set (F := fun th => filter_map (fun f => match f with FDrop a => Some a | FFree _ => None end) (gt_stk th)).
    assert (Hone : occ a (F th) = S (occ a (filter_map (fun f => match f with FDrop a => Some a | FFree _ => None end) k))).
    { unfold F. rewrite Hk. change (occ a (a :: filter_map (fun f => match f with FDrop a => Some a | FFree _ => None end) k) = S (occ a (filter_map (fun f => match f with FDrop a => Some a | FFree _ => None end) k))).
      rewrite occ_cons, decide_True by done. done. }
    pose proof (concat_occ F _ _ _ a Ht) as Ho. change (concat (map F (gc_thr st))) with (to_drop st) in Ho.
    split; [|split; [|split]].
    + intros t' th' h Ht' Ha'. pose proof (Hv _ _ _ _ Ht' Ha') as Hin. rewrite occ_pos in Hin. lia.
    + intros t' th' Ht' Ha'. destruct (decide (t' = t)) as [|Hne]; [done|]. exfalso.
      pose proof (concat_occ2 F _ _ _ _ _ a Hne Ht' Ht) as Ho2. change (concat (map F (gc_thr st))) with (to_drop st) in Ho2.
      apply drop_in in Ha'. rewrite occ_pos in Ha'. change (0 < occ a (F th')) in Ha'. lia.
    + intros Ha'. apply drop_in in Ha'. rewrite occ_pos in Ha'. lia.
    + intros b n d' Hb Hin. pose proof (slot_refs _ _ _ _ _ Hb Hin). lia.
  - intros t th a k Ht Hk.
    set (F := fun th => filter_map (fun f => match f with FFree a => Some a | FDrop _ => None end) (gt_stk th)).
    assert (Hone : occ a (F th) = S (occ a (filter_map (fun f => match f with FFree a => Some a | FDrop _ => None end) k))).
    { unfold F. rewrite Hk. change (occ a (a :: filter_map (fun f => match f with FFree a => Some a | FDrop _ => None end) k) = S (occ a (filter_map (fun f => match f with FFree a => Some a | FDrop _ => None end) k))).
      rewrite occ_cons, decide_True by done. done. }
    assert (Hle : occ a (to_free st) <= 1). { unfold occ. eapply NoDup_count_occ. by apply NoDup_ListNoDup. }
    pose proof (concat_occ F _ _ _ a Ht) as Ho. change (concat (map F (gc_thr st))) with (to_free st) in Ho.
    split.
    + intros t' th' Ht' Ha'. destruct (decide (t' = t)) as [|Hne]; [done|]. exfalso.
      pose proof (concat_occ2 F _ _ _ _ _ a Hne Ht' Ht) as Ho2. change (concat (map F (gc_thr st))) with (to_free st) in Ho2.
      apply free_in in Ha'. rewrite occ_pos in Ha'. change (0 < occ a (F th')) in Ha'. lia.
    + intros Ha'. apply free_in in Ha'. rewrite occ_pos in Ha'. lia.
Qed.

(** ** Growth of the monitor *)
Lemma closed_app hist H V : closed hist V -> closed (hist ++ [H]) V.
Proof. intros HV e He. destruct (HV e He) as (H'&E&?). exists H'. split; [|done]. by apply lookup_app_l_Some. Qed.
Lemma closed_union hist V W : closed hist V -> closed hist W -> closed hist (V ∪ W).
Proof.
  intros HV HW e [He|He]%elem_of_union; [destruct (HV e He) as (H&?&?)|destruct (HW e He) as (H&?&?)]; exists H; (split; [done|set_solver]).
Qed.
(** the state stays, and everything known grows *)
Lemma rinv_grow st M M' : rinv st M ->
  (forall e H, mo_hist M !! e = Some H -> mo_hist M' !! e = Some H) ->
  (forall e H, mo_hist M' !! e = Some H -> e ∈ H /\ closed (mo_hist M') H) ->
  (forall t, closed (mo_hist M') (mview M' t)) -> (forall t, mview M t ⊆ mview M' t) ->
  (forall k b U, mo_vars M !! k = Some (b, U) -> exists U', mo_vars M' !! k = Some (b, U') /\ U ⊆ U') ->
  mo_cells M' = mo_cells M -> rinv st M'.
Proof.
  intros [I1 I2 I3 I4 I5 I6 I7 I8 I9] Gh Gh2 Gv Gv2 Gu Gc. split; [done|done|..]; rewrite ?Gc.
  - intros a c Hc e He. destruct (I3 a c Hc e He) as (H&?&?). exists H. split; [by apply Gh|done].
  - done.
  - intros t th h a Ht Ha. destruct (I5 t th h a Ht Ha) as (b&U&c&H&Hu&Hb&Hc&Hh&Hi). destruct (Gu _ _ _ Hu) as (U'&Hu'&_).
    exists b, U', c, H. split; [done|]. split; [by apply Gv2|]. split; [done|]. split; [by apply Gh|done].
  - intros t th a Ht Ha. destruct (I6 t th a Ht Ha) as (c&Hc&Hi). exists c. split; [done|]. by apply Gv2.
  - intros t th a Ht Ha. destruct (I7 t th a Ht Ha) as (c&Hc&Hi). exists c. split; [done|]. etrans; [done|]. apply Gv2.
  - intros b n d x Hb Hx. destruct (I8 b n d x Hb Hx) as (cb&cx&H&?&?&?&?). exists cb, cx, H. auto.
  - intros a n d c e Ha Hc He. destruct (I9 a n d c e Ha Hc He) as [c' Hc' Hr|t th h b U y0 H0 Ht Hh Hu HU Hy0 HH0|t th Ht Hk HV|b n' d' c' x H Hb Hin Hc' Hx Hh HH|Hun].
    + eapply cov_rel; [|done]. by rewrite Gc.
    + destruct (Gu _ _ _ Hu) as (U'&Hu'&Hsub). eapply cov_var; [done|done|done|by apply Hsub|by apply Gh|done].
    + eapply cov_pend; [done|done|]. by apply Gv2.
    + eapply cov_slot; [done|done|by rewrite Gc|done|by apply Gh|done].
    + by apply cov_none.
Qed.
Lemma mview_put hist view vs cs t V u :
  mview (MON hist (<[t := V]> view) vs cs) u = if decide (t = u) then V else default ∅ (view !! u).
Proof.
  unfold mview. simpl. destruct (decide (t = u)) as [->|Hne]; [by rewrite lookup_insert|by rewrite lookup_insert_ne].
Qed.
(** a step is an event *)
Lemma rinv_event st M t : rinv st M ->
  let V1 := {[length (mo_hist M)]} ∪ mview M t in
  rinv st (MON (mo_hist M ++ [V1]) (<[t := V1]> (mo_view M)) (mo_vars M) (mo_cells M)).
Proof.
  intros HI V1. pose proof HI as [I1 I2 I3 I4 I5 I6 I7 I8 I9].
  assert (HV1 : closed (mo_hist M ++ [V1]) V1).
  { intros e [->%elem_of_singleton|He]%elem_of_union.
    - exists V1. split; [|done]. by rewrite lookup_app_r, Nat.sub_diag by lia.
    - destruct (I2 t e He) as (H&E&Hs). exists H. split; [by apply lookup_app_l_Some|]. unfold V1. set_solver. }
  eapply rinv_grow; [exact HI|..].
  - intros e H E. simpl. by apply lookup_app_l_Some.
  - simpl. intros e H. rewrite lookup_app_Some. intros [E|[Hle E]].
    + destruct (I1 e H E) as [? ?]. split; [done|]. by apply closed_app.
    + apply list_lookup_singleton_Some in E as [E <-]. split; [|done]. assert (e = length (mo_hist M)) as -> by lia. unfold V1. set_solver.
  - intros u. rewrite mview_put. simpl. destruct (decide (t = u)) as [->|Hne]; [done|]. apply closed_app. apply (I2 u).
  - intros u. rewrite mview_put. destruct (decide (t = u)) as [->|Hne]; [unfold V1; set_solver|done].
  - simpl. intros k b U Hk. exists U. done.
  - done.
Qed.
(** what a thread knows grows *)
Lemma rinv_know st M t V : rinv st M -> closed (mo_hist M) V -> mview M t ⊆ V ->
  rinv st (MON (mo_hist M) (<[t := V]> (mo_view M)) (mo_vars M) (mo_cells M)).
Proof.
  intros HI HV Hs. pose proof HI as [I1 I2 I3 I4 I5 I6 I7 I8 I9]. eapply rinv_grow; [exact HI|..].
  - done.
  - done.
  - intros u. rewrite mview_put. simpl. destruct (decide (t = u)) as [->|Hne]; [done|]. apply (I2 u).
  - intros u. rewrite mview_put. destruct (decide (t = u)) as [->|Hne]; done.
  - simpl. intros k b U Hk. exists U. done.
  - done.
Qed.
Lemma rinv_use st M e o h : rinv st M -> rinv st (MON (mo_hist M) (mo_view M) (use e o h (mo_vars M)) (mo_cells M)).
Proof.
  intros HI. pose proof HI as [I1 I2 I3 I4 I5 I6 I7 I8 I9]. eapply rinv_grow; [exact HI|done|done|done|done| |done].
  simpl. intros k b U Hk. unfold use. destruct (decide ((o, h) = k)) as [<-|Hne].
  - rewrite lookup_alter, Hk. simpl. eexists. split; [done|]. set_solver.
  - rewrite lookup_alter_ne by done. eauto.
Qed.
(** an access *)
Lemma rinv_touch st M e V x n d :
  rinv st M -> gmm (gc_mem st) !! x = Some (S n, d) -> cover st M x e -> (exists c, mo_cells M !! x = Some c /\ rc_ini c ∈ V) ->
  (forall t th, gc_thr st !! t = Some th -> FFree x ∉ gt_stk th) ->
  exists cs, touch e V x (mo_cells M) = Ok cs /\ rinv st (MON (mo_hist M) (mo_view M) (mo_vars M) cs) /\
    (forall a c, mo_cells M !! a = Some c -> exists c', cs !! a = Some c' /\ rc_ini c' = rc_ini c /\ rc_acc c ⊆ rc_acc c' /\ rc_rel c' = rc_rel c) /\
    (exists c, cs !! x = Some c /\ e ∈ rc_acc c).
Proof.
  intros HI Hx Hcov (c&Hc&Hini) Hnf. pose proof HI as [I1 I2 I3 I4 I5 I6 I7 I8 I9]. unfold touch. rewrite Hc, decide_True by done.
  set (c1 := RC (rc_ini c) ({[e]} ∪ rc_acc c) (rc_rel c)).
  assert (Hmono : forall a c0, mo_cells M !! a = Some c0 -> exists c', <[x := c1]> (mo_cells M) !! a = Some c' /\ rc_ini c' = rc_ini c0 /\ rc_acc c0 ⊆ rc_acc c' /\ rc_rel c' = rc_rel c0).
  { intros a c0 Ha. destruct (decide (x = a)) as [<-|Hne].
    - rewrite lookup_insert. rewrite Hc in Ha. injection Ha as <-. exists c1. split; [done|]. split; [done|]. split; [unfold c1; simpl; set_solver|done].
    - rewrite lookup_insert_ne by done. eauto. }
  assert (Hcv : forall a e', cover st M a e' -> cover st (MON (mo_hist M) (mo_view M) (mo_vars M) (<[x := c1]> (mo_cells M))) a e').
  { intros a e' [c' Hc' Hr|t th h b U y0 H0 Ht Hh Hu HU Hy0 HH0|t th Ht Hk HV|b n' d' c' y H Hb Hin Hc' Hy Hh HH|Hun].
    - destruct (Hmono a c' Hc') as (c2&E&_&_&Hr2). eapply cov_rel; [exact E|]. by rewrite Hr2.
    - by eapply cov_var.
    - by eapply cov_pend.
    - destruct (Hmono b c' Hc') as (c2&E&_&Ha2&_). eapply cov_slot; [done|done|exact E|by apply Ha2|done|done].
    - by apply cov_none. }
  eexists. split; [done|]. split; [|split; [done|]].
  2:{ exists c1. rewrite lookup_insert. split; [done|]. unfold c1. simpl. set_solver. }
  split; simpl; [done|done|..].
  - intros a c0 Ha. destruct (decide (x = a)) as [<-|Hne].
    + rewrite lookup_insert in Ha. injection Ha as <-. simpl. by apply (I3 x).
    + rewrite lookup_insert_ne in Ha by done. by apply (I3 a).
  - intros a. destruct (decide (x = a)) as [<-|Hne].
    + rewrite lookup_insert, Hx. split; eauto.
    + rewrite lookup_insert_ne by done. apply I4.
  - intros t th h a Ht Ha. destruct (I5 t th h a Ht Ha) as (b&U&c0&H&Hu&Hb&Hc0&Hh&Hi). destruct (Hmono _ _ Hc0) as (c'&E&Hi'&_).
    exists b, U, c', H. rewrite Hi'. done.
  - intros t th a Ht Ha. destruct (I6 t th a Ht Ha) as (c0&Hc0&Hi). destruct (Hmono _ _ Hc0) as (c'&E&Hi'&_). exists c'. by rewrite Hi'.
  - intros t th a Ht Ha. destruct (I7 t th a Ht Ha) as (c0&Hc0&Hi). exists c0. split; [|done]. rewrite lookup_insert_ne; [done|].
    intros ->. by eapply Hnf.
  - intros b n' d' y Hb Hy. destruct (I8 b n' d' y Hb Hy) as (cb&cx&H&Eb&Ex&Eh&Hi).
    destruct (Hmono _ _ Eb) as (cb'&Eb'&Hib&_). destruct (Hmono _ _ Ex) as (cx'&Ex'&Hix&_). exists cb', cx', H. rewrite Hib, Hix. done.
  - intros a n' d' c0 e' Ha Hc0 He'. apply Hcv. destruct (decide (x = a)) as [<-|Hne].
    + rewrite lookup_insert in Hc0. injection Hc0 as <-. simpl in He'. apply elem_of_union in He' as [->%elem_of_singleton|He']; [done|].
      by eapply I9.
    + rewrite lookup_insert_ne in Hc0 by done. by eapply I9.
Qed.

(** several accesses; [seen]: what has been accessed before *)
Lemma rinv_touches st e V hist view vs xs : forall seen cs0,
  rinv st (MON hist view vs cs0) -> Forall (fun x => exists n d, gmm (gc_mem st) !! x = Some (S n, d)) xs ->
  (forall t th x n d, gc_thr st !! t = Some th -> FFree x ∈ gt_stk th -> gmm (gc_mem st) !! x <> Some (S n, d)) ->
  Forall (fun x => exists c, cs0 !! x = Some c /\ rc_ini c ∈ V) xs ->
  (forall y, y ∈ seen -> exists c, cs0 !! y = Some c /\ e ∈ rc_acc c) ->
  (forall l1 x l2 cs, xs = l1 ++ x :: l2 -> (forall y, y ∈ seen ++ l1 -> exists c, cs !! y = Some c /\ e ∈ rc_acc c) -> cover st (MON hist view vs cs) x e) ->
  exists cs, touches e V xs cs0 = Ok cs /\ rinv st (MON hist view vs cs) /\
    (forall a c, cs0 !! a = Some c -> exists c', cs !! a = Some c' /\ rc_ini c' = rc_ini c).
Proof.
  induction xs as [|x xs IH]; intros seen cs0 HI HL Hnf HV Hseen Hcov; simpl.
  - exists cs0. split; [done|]. split; [done|]. eauto.
  - apply Forall_cons in HL as [(n&d&Hx) HL]. apply Forall_cons in HV as [Hvx HV].
    destruct (rinv_touch st _ e V x n d HI Hx) as (cs1&E1&HI1&Hm1&Hx1).
    { apply (Hcov [] x xs cs0 eq_refl). intros y Hy. rewrite app_nil_r in Hy. by apply Hseen. }
    { done. }
    { intros t th Ht Hin. by eapply Hnf. }
    simpl in E1. rewrite E1. simpl. destruct (IH (seen ++ [x]) cs1) as (cs2&E2&HI2&Hm2).
    + done.
    + done.
    + done.
    + eapply Forall_impl; [exact HV|]. intros y (c&Hc&Hi). destruct (Hm1 _ _ Hc) as (c'&E&Hi'&_). exists c'. by rewrite Hi'.
    + intros y [Hy| ->%elem_of_list_singleton]%elem_of_app; [|done]. destruct (Hseen y Hy) as (c&Hc&He).
      destruct (Hm1 _ _ Hc) as (c'&E&_&Ha&_). exists c'. split; [done|]. by apply Ha.
    + intros l1 y l2 cs -> Hin. apply (Hcov (x :: l1) y l2 cs eq_refl). intros z Hz. apply Hin.
      rewrite <-app_assoc. done.
    + exists cs2. split; [done|]. split; [done|]. intros a c Ha. destruct (Hm1 _ _ Ha) as (c'&E&Hi'&_).
      destruct (Hm2 _ _ E) as (c''&E''&Hi''). exists c''. split; [done|]. congruence.
Qed.

(** ** Changes of the state *)
(** what a count releases grows *)
Lemma rinv_rel st M a c W : rinv st M -> mo_cells M !! a = Some c -> closed (mo_hist M) W ->
  rinv st (MON (mo_hist M) (mo_view M) (mo_vars M) (<[a := RC (rc_ini c) (rc_acc c) (rc_rel c ∪ W)]> (mo_cells M))).
Proof.
  intros HI Hc HW. pose proof HI as [I1 I2 I3 I4 I5 I6 I7 I8 I9]. set (c1 := RC (rc_ini c) (rc_acc c) (rc_rel c ∪ W)).
  assert (Hmono : forall b c0, mo_cells M !! b = Some c0 -> exists c', <[a := c1]> (mo_cells M) !! b = Some c' /\ rc_ini c' = rc_ini c0 /\ rc_acc c' = rc_acc c0 /\ rc_rel c0 ⊆ rc_rel c').
  { intros b c0 Hb. destruct (decide (a = b)) as [<-|Hne].
    - rewrite lookup_insert. rewrite Hc in Hb. injection Hb as <-. exists c1. split; [done|]. split; [done|]. split; [done|]. unfold c1. simpl. set_solver.
    - rewrite lookup_insert_ne by done. eauto. }
  split; simpl; [done|done|..].
  - intros b c0 Hb. destruct (decide (a = b)) as [<-|Hne].
    + rewrite lookup_insert in Hb. injection Hb as <-. simpl. apply closed_union; [by apply (I3 a)|done].
    + rewrite lookup_insert_ne in Hb by done. by apply (I3 b).
  - intros b. rewrite <-(I4 b). destruct (decide (a = b)) as [<-|Hne].
    + rewrite lookup_insert, Hc. split; eauto.
    + by rewrite lookup_insert_ne by done.
  - intros t th h x Ht Ha. destruct (I5 t th h x Ht Ha) as (b&U&c0&H&Hu&Hb&Hc0&Hh&Hi). destruct (Hmono _ _ Hc0) as (c'&E&Hi'&_).
    exists b, U, c', H. rewrite Hi'. done.
  - intros t th x Ht Ha. destruct (I6 t th x Ht Ha) as (c0&Hc0&Hi). destruct (Hmono _ _ Hc0) as (c'&E&Hi'&_). exists c'. by rewrite Hi'.
  - intros t th x Ht Ha. destruct (I7 t th x Ht Ha) as (c0&Hc0&Hi). destruct (Hmono _ _ Hc0) as (c'&E&_&Ha'&_). exists c'. by rewrite Ha'.
  - intros b n' d' y Hb Hy. destruct (I8 b n' d' y Hb Hy) as (cb&cx&H&Eb&Ex&Eh&Hi).
    destruct (Hmono _ _ Eb) as (cb'&Eb'&Hib&_). destruct (Hmono _ _ Ex) as (cx'&Ex'&Hix&_). exists cb', cx', H. rewrite Hib, Hix. done.
  - intros b n d c0 e Hb Hc0 He.
    assert (exists c2, mo_cells M !! b = Some c2 /\ e ∈ rc_acc c2) as (c2&Hc2&He2).
    { destruct (decide (a = b)) as [<-|Hne].
      - rewrite lookup_insert in Hc0. injection Hc0 as <-. eauto.
      - rewrite lookup_insert_ne in Hc0 by done. eauto. }
    destruct (I9 b n d c2 e Hb Hc2 He2) as [c' Hc' Hr|t th h b' U y0 H0 Ht Hh Hu HU Hy0 HH0|t th Ht Hk HV|b' n' d' c' y H Hb' Hin Hc' Hy Hh HH|Hun].
    + destruct (Hmono _ _ Hc') as (c3&E&_&_&Hr3). eapply cov_rel; [exact E|]. by apply Hr3.
    + by eapply cov_var.
    + by eapply cov_pend.
    + destruct (Hmono _ _ Hc') as (c3&E&_&Ha3&_). eapply cov_slot; [done|done|exact E|by rewrite Ha3|done|done].
    + by apply cov_none.
Qed.
(** a count changes *)
Lemma rinv_count st M a n n' d ck : rinv st M -> gmm (gc_mem st) !! a = Some (S n, d) ->
  rinv (GCS (GST (<[a := (S n', d)]> (gmm (gc_mem st))) ck) (gc_thr st)) M.
Proof.
  intros HI Ha. pose proof HI as [I1 I2 I3 I4 I5 I6 I7 I8 I9].
  assert (Hold : forall b k d', <[a := (S n', d)]> (gmm (gc_mem st)) !! b = Some (S k, d') -> exists k', gmm (gc_mem st) !! b = Some (S k', d')).
  { intros b k d'. destruct (decide (a = b)) as [<-|Hne].
    - rewrite lookup_insert. intros [= _ <-]. eauto.
    - rewrite lookup_insert_ne by done. eauto. }
  assert (Hold0 : forall b k d', <[a := (S n', d)]> (gmm (gc_mem st)) !! b = Some (k, d') -> exists k', gmm (gc_mem st) !! b = Some (k', d')).
  { intros b k d'. destruct (decide (a = b)) as [<-|Hne].
    - rewrite lookup_insert. intros [= _ <-]. eauto.
    - rewrite lookup_insert_ne by done. eauto. }
  assert (Hnew : forall b k d', gmm (gc_mem st) !! b = Some (S k, d') -> exists k', <[a := (S n', d)]> (gmm (gc_mem st)) !! b = Some (S k', d')).
  { intros b k d' Hb. destruct (decide (a = b)) as [<-|Hne].
    - rewrite lookup_insert. rewrite Ha in Hb. injection Hb as _ <-. eauto.
    - rewrite lookup_insert_ne by done. eauto. }
  split; simpl; try done.
  - intros b. rewrite (I4 b). destruct (decide (a = b)) as [<-|Hne].
    + rewrite lookup_insert, Ha. split; eauto.
    + by rewrite lookup_insert_ne.
  - intros b k d' y Hb Hy. destruct (Hold _ _ _ Hb) as [k' Hb']. by eapply I8.
  - intros b k d' c e Hb Hc He. destruct (Hold _ _ _ Hb) as [k' Hb'].
    destruct (I9 b k' d' c e Hb' Hc He) as [c' Hc' Hr|t th h b' U y0 H0 Ht Hh Hu HU Hy0 HH0|t th Ht Hk HV|b2 n2 d2 c2 y H Hb2 Hin Hc2 Hy Hh HH|[Hu1 [Hu2 Hu3]]].
    + by eapply cov_rel.
    + by eapply cov_var.
    + by eapply cov_pend.
    + destruct (Hnew _ _ _ Hb2) as [k2 Hb2']. by eapply cov_slot.
    + apply cov_none. split; [done|]. split; [done|]. simpl. intros b3 k3 d3 Hb3. destruct (Hold0 _ _ _ Hb3) as [k4 Hb4]. by eapply Hu3.
Qed.
Lemma thr_put (l : list gthread) t th u x : <[t := th]> l !! u = Some x -> (u = t /\ x = th) \/ (u <> t /\ l !! u = Some x).
Proof. rewrite list_lookup_insert_Some. naive_solver. Qed.
Lemma thr_get (l : list gthread) t th th0 u x : l !! t = Some th0 -> l !! u = Some x ->
  exists y, <[t := th]> l !! u = Some y /\ (u = t /\ y = th /\ x = th0 \/ u <> t /\ y = x).
Proof.
  intros Ht Hu. destruct (decide (u = t)) as [->|Hne].
  - exists th. rewrite list_lookup_insert by (by eapply lookup_lt_Some). rewrite Ht in Hu. injection Hu as ->. split; [done|]. by left.
  - exists x. rewrite list_lookup_insert_ne by done. split; [done|]. by right.
Qed.
(** a variable is filled *)
Lemma rinv_push st M t th oa e H :
  rinv st M -> gc_thr st !! t = Some th -> mo_hist M !! e = Some H -> e ∈ mview M t ->
  match oa with
  | Some a => exists c, mo_cells M !! a = Some c /\ rc_ini c ∈ H /\ (unref st a -> rc_acc c ⊆ H)
  | None => True
  end ->
  rinv (GCS (gc_mem st) (<[t := GTH (gt_env th ++ [oa]) (gt_stk th)]> (gc_thr st)))
       (MON (mo_hist M) (mo_view M) (<[(t, length (gt_env th)) := (e, {[e]})]> (mo_vars M)) (mo_cells M)).
Proof.
  intros HI Ht Hh He Hoa. pose proof HI as [I1 I2 I3 I4 I5 I6 I7 I8 I9]. split; simpl; [done|done|done|done|..].
  - intros u thu h a [[-> ->]|[Hne Hu]]%thr_put Ha; simpl in *.
    + apply lookup_app_Some in Ha as [Ha|[Hle Ha]].
      * rewrite lookup_insert_ne; [by eapply I5|]. intros [= <-]. apply lookup_lt_Some in Ha. lia.
      * apply list_lookup_singleton_Some in Ha as [Hz ->]. assert (h = length (gt_env th)) as -> by lia.
        destruct Hoa as (c&Hc&Hi&_). rewrite lookup_insert. exists e, {[e]}, c, H. done.
    + rewrite lookup_insert_ne by congruence. by eapply I5.
  - intros u thu a [[-> ->]|[Hne Hu]]%thr_put Ha; simpl in *; by eapply I6.
  - intros u thu a [[-> ->]|[Hne Hu]]%thr_put Ha; simpl in *; by eapply I7.
  - done.
  - intros a n d c e' Ha Hc He'. destruct (I9 a n d c e' Ha Hc He') as [c' Hc' Hr|u thu h b' U y0 H0 Hu Hv Hvs HU Hy0 HH0|u thu Hu Hk HV|b2 n2 d2 c2 y H2 Hb2 Hin Hc2 Hy Hh2 HH|Hun].
    + by eapply cov_rel.
    + destruct (thr_get _ t (GTH (gt_env th ++ [oa]) (gt_stk th)) th u thu Ht Hu) as (y&Ey&[(->&->&->)|[Hne ->]]).
      * eapply cov_var; [exact Ey|simpl; by apply lookup_app_l_Some| |exact HU|done|done]. simpl. rewrite lookup_insert_ne; [done|].
        intros [= <-]. apply lookup_lt_Some in Hv. lia.
      * eapply cov_var; [exact Ey|done| |exact HU|done|done]. simpl. rewrite lookup_insert_ne; [done|]. congruence.
    + destruct (thr_get _ t (GTH (gt_env th ++ [oa]) (gt_stk th)) th u thu Ht Hu) as (y&Ey&[(->&->&->)|[Hne ->]]); by eapply cov_pend.
    + by eapply cov_slot.
    + destruct (decide (oa = Some a)) as [->|Hne].
      * destruct Hoa as (c0&Hc0&_&Hacc). rewrite Hc in Hc0. injection Hc0 as <-.
        eapply cov_var; [simpl; by rewrite list_lookup_insert by (by eapply lookup_lt_Some)|simpl; apply list_lookup_middle; reflexivity|simpl; by rewrite lookup_insert|by apply elem_of_singleton|done|]. by apply Hacc.
      * apply cov_none. destruct Hun as (Hu1&Hu2&Hu3). split; [|split; [|done]]; simpl.
        -- intros u thu h [[-> ->]|[Hne' Hu]]%thr_put; simpl; [|by eapply Hu1]. intros [Hx|[_ Hx]]%lookup_app_Some; [by eapply Hu1|].
           apply list_lookup_singleton_Some in Hx as [_ Hx]. congruence.
        -- intros u thu [[-> ->]|[Hne' Hu]]%thr_put; simpl; by eapply Hu2.
Qed.
(** a variable is moved out: its pointer is going to be dropped *)
Lemma rinv_take st M t th h a b U :
  rinv st M -> gc_thr st !! t = Some th -> gt_env th !! h = Some (Some a) -> mo_vars M !! (t, h) = Some (b, U) -> U ⊆ mview M t ->
  rinv (GCS (gc_mem st) (<[t := GTH (<[h := None]> (gt_env th)) (FDrop a :: gt_stk th)]> (gc_thr st))) M.
Proof.
  intros HI Ht Ha Hv HU. pose proof HI as [I1 I2 I3 I4 I5 I6 I7 I8 I9].
  assert (Hold : forall i x, <[h := None]> (gt_env th) !! i = Some (Some x) -> gt_env th !! i = Some (Some x) /\ i <> h).
  { intros i x. rewrite list_lookup_insert_Some. naive_solver. }
  split; simpl; [done|done|done|done|..].
  - intros u thu i x [[-> ->]|[Hne Hu]]%thr_put Hx; simpl in *; [|by eapply I5]. apply Hold in Hx as [Hx _]. by eapply I5.
  - intros u thu x [[-> ->]|[Hne Hu]]%thr_put Hx; simpl in *; [|by eapply I6]. apply elem_of_cons in Hx as [[= ->]|Hx]; [|by eapply I6].
    destruct (I5 t th h a Ht Ha) as (b0&U0&c&H&Hu0&Hb0&Hc&Hh&Hi). exists c. split; [done|]. destruct (I2 t b0 Hb0) as (H'&E&Hs). rewrite Hh in E. injection E as <-. by apply Hs.
  - intros u thu x [[-> ->]|[Hne Hu]]%thr_put Hx; simpl in *; [|by eapply I7]. apply elem_of_cons in Hx as [[=]|Hx]. by eapply I7.
  - done.
  - intros x n d c e' Hx Hc He'. destruct (I9 x n d c e' Hx Hc He') as [c' Hc' Hr|u thu i b' U' y0 H0 Hu Hvu Hvs HU' Hy0 HH0|u thu Hu Hk HV|b2 n2 d2 c2 y H2 Hb2 Hin Hc2 Hy Hh2 HH|Hun].
    + by eapply cov_rel.
    + destruct (thr_get _ t (GTH (<[h := None]> (gt_env th)) (FDrop a :: gt_stk th)) th u thu Ht Hu) as (y&Ey&[(->&->&->)|[Hne ->]]).
      * destruct (decide (i = h)) as [->|Hi].
        -- rewrite Ha in Hvu. injection Hvu as <-. rewrite Hv in Hvs. injection Hvs as <- <-.
           eapply cov_pend; [exact Ey|left|]. destruct (I2 t y0 (HU _ HU')) as (H'&E&Hs). rewrite Hy0 in E. injection E as <-. by apply Hs.
        -- eapply cov_var; [exact Ey|simpl; by rewrite list_lookup_insert_ne by done|done|done|done|done].
      * by eapply cov_var.
    + destruct (thr_get _ t (GTH (<[h := None]> (gt_env th)) (FDrop a :: gt_stk th)) th u thu Ht Hu) as (y&Ey&[(->&->&->)|[Hne ->]]).
      * eapply cov_pend; [exact Ey|by right|done].
      * by eapply cov_pend.
    + by eapply cov_slot.
    + apply cov_none. destruct Hun as (Hu1&Hu2&Hu3). split; [|split; [|done]]; simpl.
      * intros u thu i [[-> ->]|[Hne' Hu]]%thr_put; simpl; [|by eapply Hu1]. intros [Hx' _]%Hold. by eapply Hu1.
      * intros u thu [[-> ->]|[Hne' Hu]]%thr_put; simpl; [|by eapply Hu2]. intros [[= ->]|Hx']%elem_of_cons; [by eapply Hu1|by eapply Hu2].
Qed.
(** a pointer that was going to be dropped becomes a variable again, of a thread that knows what this one knows *)
Lemma rinv_give st M t th u thu k a e :
  rinv st M -> gc_thr st !! t = Some th -> gt_stk th = FDrop a :: k -> <[t := GTH (gt_env th) k]> (gc_thr st) !! u = Some thu ->
  mo_hist M !! e = Some (mview M t) -> e ∈ mview M u ->
  rinv (GCS (gc_mem st) (<[u := GTH (gt_env thu ++ [Some a]) (gt_stk thu)]> (<[t := GTH (gt_env th) k]> (gc_thr st))))
       (MON (mo_hist M) (mo_view M) (<[(u, length (gt_env thu)) := (e, {[e]})]> (mo_vars M)) (mo_cells M)).
Proof.
  intros HI Ht Hk Hu He Heu. pose proof HI as [I1 I2 I3 I4 I5 I6 I7 I8 I9].
  set (l1 := <[t := GTH (gt_env th) k]> (gc_thr st)) in *.
  assert (Hold : forall v x, l1 !! v = Some x -> exists x0, gc_thr st !! v = Some x0 /\ gt_env x = gt_env x0 /\ forall f, f ∈ gt_stk x -> f ∈ gt_stk x0).
  { intros v x [[-> ->]|[Hne Hv]]%thr_put; [|eauto]. exists th. split; [done|]. split; [done|]. simpl. intros f Hf. rewrite Hk. by right. }
  assert (Hnew : forall v x0, gc_thr st !! v = Some x0 -> exists x, l1 !! v = Some x /\ gt_env x = gt_env x0 /\ forall f, f ∈ gt_stk x0 -> f ∈ gt_stk x \/ v = t /\ f = FDrop a).
  { intros v x0 Hv. destruct (thr_get _ t (GTH (gt_env th) k) th v x0 Ht Hv) as (y&Ey&[(->&->&->)|[Hne ->]]); [|eauto].
    eexists. split; [exact Ey|]. split; [done|]. simpl. intros f. rewrite Hk. intros [->|Hf]%elem_of_cons; auto. }
  assert (Hl2 : forall v x, l1 !! v = Some x -> exists y, <[u := GTH (gt_env thu ++ [Some a]) (gt_stk thu)]> l1 !! v = Some y /\
            (forall i z, gt_env x !! i = Some (Some z) -> gt_env y !! i = Some (Some z) /\ (v, i) <> (u, length (gt_env thu))) /\ gt_stk y = gt_stk x).
  { intros v x Hv. destruct (thr_get _ u (GTH (gt_env thu ++ [Some a]) (gt_stk thu)) thu v x Hu Hv) as (y&Ey&[(->&->&->)|[Hne ->]]).
    - eexists. split; [exact Ey|]. simpl. split; [|done]. intros i z Hz. split; [by apply lookup_app_l_Some|].
      apply lookup_lt_Some in Hz. intros [= ->]. lia.
    - eexists. split; [exact Ey|]. split; [|done]. intros i z Hz. split; [done|]. congruence. }
  split; simpl; [done|done|done|done|..].
  - intros v x i z [[-> ->]|[Hne Hv]]%thr_put Hz; simpl in *.
    + destruct (Hold u thu Hu) as (x0&Hx0&Ee&_). apply lookup_app_Some in Hz as [Hz|[Hle Hz]].
      * rewrite lookup_insert_ne. { eapply I5; [done|]. by rewrite <-Ee. } intros [= <-]. apply lookup_lt_Some in Hz. lia.
      * apply list_lookup_singleton_Some in Hz as [Hzz [= ->]]. assert (i = length (gt_env thu)) as -> by lia. rewrite lookup_insert.
        destruct (I6 t th z Ht ltac:(rewrite Hk; left)) as (c&Hc&Hi). exists e, {[e]}, c, (mview M t). done.
    + destruct (Hold v x Hv) as (x0&Hx0&Ee&_). rewrite lookup_insert_ne by congruence. eapply I5; [done|]. by rewrite <-Ee.
  - intros v x z [[-> ->]|[Hne Hv]]%thr_put Hz; simpl in *.
    + destruct (Hold u thu Hu) as (x0&Hx0&_&Es). eapply I6; [done|by apply Es].
    + destruct (Hold v x Hv) as (x0&Hx0&_&Es). eapply I6; [done|by apply Es].
  - intros v x z [[-> ->]|[Hne Hv]]%thr_put Hz; simpl in *.
    + destruct (Hold u thu Hu) as (x0&Hx0&_&Es). eapply I7; [done|by apply Es].
    + destruct (Hold v x Hv) as (x0&Hx0&_&Es). eapply I7; [done|by apply Es].
  - done.
  - intros x n d c e' Hx Hc He'. destruct (I9 x n d c e' Hx Hc He') as [c' Hc' Hr|v x0 i b' U' y0 H0 Hv Hvu Hvs HU' Hy0 HH0|v x0 Hv Hkk HV|b2 n2 d2 c2 y H2 Hb2 Hin Hc2 Hy Hh2 HH|Hun].
    + by eapply cov_rel.
    + destruct (Hnew v x0 Hv) as (x1&Hx1&Ee&_). destruct (Hl2 v x1 Hx1) as (x2&Hx2&Henv&_).
      destruct (Henv i x) as [Hi2 Hne]; [by rewrite Ee|]. eapply cov_var; [exact Hx2|exact Hi2|simpl; rewrite lookup_insert_ne; [done|congruence]|done|done|done].
    + destruct (Hnew v x0 Hv) as (x1&Hx1&_&Es). destruct (Hl2 v x1 Hx1) as (x2&Hx2&_&Es2).
      destruct (Es _ Hkk) as [Hf|[-> [= ->]]].
      * eapply cov_pend; [exact Hx2|by rewrite Es2|done].
      * eapply cov_var; [simpl; rewrite list_lookup_insert by (by eapply lookup_lt_Some); reflexivity|simpl; apply list_lookup_middle; reflexivity|simpl; by rewrite lookup_insert|by apply elem_of_singleton|done|done].
    + by eapply cov_slot.
    + apply cov_none. destruct Hun as (Hu1&Hu2&Hu3).
      assert (Hax : a <> x). { intros ->. apply (Hu2 t th Ht). rewrite Hk. left. }
      split; [|split; [|done]]; simpl.
      * intros v y i [[-> ->]|[Hne' Hv]]%thr_put; simpl.
        -- destruct (Hold u thu Hu) as (x0&Hx0&Ee&_). rewrite Ee. intros [Hz|[_ Hz]]%lookup_app_Some; [by eapply Hu1|].
           apply list_lookup_singleton_Some in Hz as [_ Hz]. congruence.
        -- destruct (Hold v y Hv) as (x0&Hx0&Ee&_). rewrite Ee. by eapply Hu1.
      * intros v y [[-> ->]|[Hne' Hv]]%thr_put; simpl; intros Hz.
        -- destruct (Hold u thu Hu) as (x0&Hx0&_&Es). eapply Hu2; [done|by apply Es].
        -- destruct (Hold v y Hv) as (x0&Hx0&_&Es). eapply Hu2; [done|by apply Es].
Qed.
(** pointers to be dropped are dropped, or only reordered *)
Lemma rinv_stk st M t th k' :
  rinv st M -> gc_thr st !! t = Some th -> (forall f, f ∈ k' -> f ∈ gt_stk th) ->
  (forall x, FDrop x ∈ gt_stk th -> FDrop x ∈ k' \/ exists c, mo_cells M !! x = Some c /\ mview M t ⊆ rc_rel c) ->
  rinv (GCS (gc_mem st) (<[t := GTH (gt_env th) k']> (gc_thr st))) M.
Proof.
  intros HI Ht Hsub Hd. pose proof HI as [I1 I2 I3 I4 I5 I6 I7 I8 I9]. split; simpl; [done|done|done|done|..].
  - intros u thu i x [[-> ->]|[Hne Hu]]%thr_put Hx; simpl in *; by eapply I5.
  - intros u thu x [[-> ->]|[Hne Hu]]%thr_put Hx; simpl in *; [|by eapply I6]. eapply I6; [done|by apply Hsub].
  - intros u thu x [[-> ->]|[Hne Hu]]%thr_put Hx; simpl in *; [|by eapply I7]. eapply I7; [done|by apply Hsub].
  - done.
  - intros x n d c e' Hx Hc He'. destruct (I9 x n d c e' Hx Hc He') as [c' Hc' Hr|u thu i b' U' y0 H0 Hu Hvu Hvs HU' Hy0 HH0|u thu Hu Hk HV|b2 n2 d2 c2 y H2 Hb2 Hin Hc2 Hy Hh2 HH|Hun].
    + by eapply cov_rel.
    + destruct (thr_get _ t (GTH (gt_env th) k') th u thu Ht Hu) as (y&Ey&[(->&->&->)|[Hne ->]]); by eapply cov_var.
    + destruct (thr_get _ t (GTH (gt_env th) k') th u thu Ht Hu) as (y&Ey&[(->&->&->)|[Hne ->]]); [|by eapply cov_pend].
      destruct (Hd x Hk) as [Hin|(c2&Hc2&Hs)]; [by eapply cov_pend|]. eapply cov_rel; [done|]. by apply Hs.
    + by eapply cov_slot.
    + apply cov_none. destruct Hun as (Hu1&Hu2&Hu3). split; [|split; [|done]]; simpl.
      * intros u thu i [[-> ->]|[Hne' Hu]]%thr_put; simpl; by eapply Hu1.
      * intros u thu [[-> ->]|[Hne' Hu]]%thr_put; simpl; [|by eapply Hu2]. intros Hf%Hsub. by eapply Hu2.
Qed.
(** an allocation takes over pointers that were going to be dropped *)
Lemma rinv_alloc st M t th a d k' e ck :
  rinv st M -> (forall b d, gmm (gc_mem st) !! b = Some (0, d) -> cslots d = []) -> gc_thr st !! t = Some th -> gmm (gc_mem st) !! a = None ->
  mo_hist M !! e = Some (mview M t) -> e ∈ mview M t ->
  (forall x, x ∈ cslots d -> FDrop x ∈ gt_stk th) -> (forall f, f ∈ k' -> f ∈ gt_stk th) ->
  (forall x, FDrop x ∈ gt_stk th -> FDrop x ∈ k' \/ x ∈ cslots d) ->
  let st' := GCS (GST (<[a := (1, d)]> (gmm (gc_mem st))) ck) (<[t := GTH (gt_env th) k']> (gc_thr st)) in
  rinv st' (MON (mo_hist M) (mo_view M) (mo_vars M) (<[a := RC e {[e]} ∅]> (mo_cells M))).
Proof.
  intros HI HF Ht Ha He Hev Hsl Hsub Hd st'. pose proof HI as [I1 I2 I3 I4 I5 I6 I7 I8 I9].
  assert (Hca : mo_cells M !! a = None).
  { destruct (mo_cells M !! a) eqn:E; [|done]. assert (is_Some (gmm (gc_mem st) !! a)) as [? Hs] by (apply I4; eauto). congruence. }
  assert (Hc : forall x c, mo_cells M !! x = Some c -> <[a := RC e {[e]} ∅]> (mo_cells M) !! x = Some c).
  { intros x c Hx. rewrite lookup_insert_ne; [done|]. intros <-. congruence. }
  assert (Hm : forall x v, gmm (gc_mem st) !! x = Some v -> <[a := (1, d)]> (gmm (gc_mem st)) !! x = Some v).
  { intros x v Hx. rewrite lookup_insert_ne; [done|]. intros <-. congruence. }
  assert (Hin : forall x c, mo_cells M !! x = Some c -> x <> a) by (intros x c Hx ->; congruence).
  assert (Hunref : unref st' a).
  { split; [|split]; simpl.
    - intros u thu i [[-> ->]|[Hne Hu]]%thr_put Hx; simpl in *; destruct (I5 _ _ _ _ ltac:(eassumption) Hx) as (?&?&c&?&_&_&Hcc&_); by apply (Hin _ _ Hcc).
    - intros u thu [[-> ->]|[Hne Hu]]%thr_put Hx; simpl in *.
      + apply Hsub in Hx. destruct (I6 _ _ _ Ht Hx) as (c&Hcc&_). by apply (Hin _ _ Hcc).
      + destruct (I6 _ _ _ Hu Hx) as (c&Hcc&_). by apply (Hin _ _ Hcc).
    - intros b n d' Hb Hi. destruct (decide (a = b)) as [<-|Hne].
      + rewrite lookup_insert in Hb. injection Hb as _ <-. apply Hsl in Hi. destruct (I6 _ _ _ Ht Hi) as (c&Hcc&_). by apply (Hin _ _ Hcc).
      + rewrite lookup_insert_ne in Hb by done. destruct n as [|n].
        * rewrite (HF _ _ Hb) in Hi. by apply elem_of_nil in Hi.
        * destruct (I8 _ _ _ _ Hb Hi) as (?&c&?&_&Hcc&_). by apply (Hin _ _ Hcc). }
  split; simpl; [done|done|..].
  - intros x c. destruct (decide (a = x)) as [<-|Hne].
    + rewrite lookup_insert. intros [= <-]. simpl. by intros e' ?%elem_of_empty.
    + rewrite lookup_insert_ne by done. apply I3.
  - intros x. destruct (decide (a = x)) as [<-|Hne]; [rewrite !lookup_insert; split; eauto|]. rewrite !lookup_insert_ne by done. apply I4.
  - intros u thu i x [[-> ->]|[Hne Hu]]%thr_put Hx; simpl in *.
    + destruct (I5 _ _ _ _ Ht Hx) as (b&U&c&H&?&?&?&?&?). exists b, U, c, H. auto.
    + destruct (I5 _ _ _ _ Hu Hx) as (b&U&c&H&?&?&?&?&?). exists b, U, c, H. auto.
  - intros u thu x [[-> ->]|[Hne Hu]]%thr_put Hx; simpl in *.
    + destruct (I6 _ _ _ Ht (Hsub _ Hx)) as (c&?&?). exists c. auto.
    + destruct (I6 _ _ _ Hu Hx) as (c&?&?). exists c. auto.
  - intros u thu x [[-> ->]|[Hne Hu]]%thr_put Hx; simpl in *.
    + destruct (I7 _ _ _ Ht (Hsub _ Hx)) as (c&?&?). exists c. auto.
    + destruct (I7 _ _ _ Hu Hx) as (c&?&?). exists c. auto.
  - intros b n d' x Hb Hx. destruct (decide (a = b)) as [<-|Hne].
    + rewrite lookup_insert in Hb. injection Hb as _ <-. destruct (I6 _ _ _ Ht (Hsl _ Hx)) as (c&Hcx&Hi).
      exists (RC e {[e]} ∅), c, (mview M t). rewrite lookup_insert. simpl. auto.
    + rewrite lookup_insert_ne in Hb by done. destruct (I8 _ _ _ _ Hb Hx) as (cb&cx&H&?&?&?&?). exists cb, cx, H. auto.
  - intros x n d' c e' Hx Hcx He'. destruct (decide (a = x)) as [<-|Hne]; [by apply cov_none|].
    rewrite lookup_insert_ne in Hx by done. rewrite lookup_insert_ne in Hcx by done.
    destruct (I9 x n d' c e' Hx Hcx He') as [c' Hc' Hr|u thu i b' U' y0 H0 Hu Hvu Hvs HU' Hy0 HH0|u thu Hu Hk HV|b2 n2 d2 c2 y H2 Hb2 Hsl2 Hc2 Hy Hh2 HH|Hun].
    + eapply cov_rel; [simpl; by apply Hc|done].
    + destruct (thr_get _ t (GTH (gt_env th) k') th u thu Ht Hu) as (y&Ey&[(->&->&->)|[Hne' ->]]); by eapply cov_var.
    + destruct (thr_get _ t (GTH (gt_env th) k') th u thu Ht Hu) as (y&Ey&[(->&->&->)|[Hne' ->]]); [|by eapply cov_pend].
      destruct (Hd x Hk) as [Hi|Hi]; [by eapply cov_pend|].
      eapply cov_slot; [simpl; by rewrite lookup_insert|exact Hi|simpl; by rewrite lookup_insert|simpl; by apply elem_of_singleton|done|done].
    + eapply cov_slot; [simpl; by apply Hm|done|simpl; by apply Hc|done|done|done].
    + apply cov_none. destruct Hun as (Hu1&Hu2&Hu3). split; [|split]; simpl.
      * intros u thu i [[-> ->]|[Hne' Hu]]%thr_put; simpl; by eapply Hu1.
      * intros u thu [[-> ->]|[Hne' Hu]]%thr_put; simpl; [|by eapply Hu2]. intros Hf%Hsub. by eapply Hu2.
      * intros b n2 d2 Hb Hi. destruct (decide (a = b)) as [<-|Hne'].
        -- rewrite lookup_insert in Hb. injection Hb as _ <-. apply Hsl in Hi. by eapply Hu2.
        -- rewrite lookup_insert_ne in Hb by done. by eapply Hu3.
Qed.
(** the last reference is dropped *)
Lemma rinv_die st M t th a d c k ck :
  rinv st M -> mfacts st -> gc_thr st !! t = Some th -> gt_stk th = FDrop a :: k -> gmm (gc_mem st) !! a = Some (1, d) ->
  mo_cells M !! a = Some c -> rc_acc c ⊆ mview M t ->
  rinv (GCS (GST (<[a := (0, GCTok (ckind d) [])]> (gmm (gc_mem st))) ck)
            (<[t := GTH (gt_env th) ((map FDrop (cslots d) ++ [FFree a]) ++ k)]> (gc_thr st))) M.
Proof.
  intros HI HF Ht Hk Ha Hc Hacc. pose proof HI as [I1 I2 I3 I4 I5 I6 I7 I8 I9].
  destruct (mf_one _ HF _ _ _ _ _ Ha Ht Hk) as (O1&O2&O3&O4).
  set (k' := (map FDrop (cslots d) ++ [FFree a]) ++ k).
  assert (Hdr : forall x, FDrop x ∈ k' <-> x ∈ cslots d \/ FDrop x ∈ k).
  { intros x. unfold k'. rewrite !elem_of_app, elem_of_list_singleton, elem_of_map. naive_solver. }
  assert (Hfr : forall x, FFree x ∈ k' <-> x = a \/ FFree x ∈ k).
  { intros x. unfold k'. rewrite !elem_of_app, elem_of_list_singleton, elem_of_map. naive_solver. }
  assert (Hxa : forall x n d', <[a := (0, GCTok (ckind d) [])]> (gmm (gc_mem st)) !! x = Some (S n, d') -> x <> a /\ gmm (gc_mem st) !! x = Some (S n, d')).
  { intros x n d'. destruct (decide (a = x)) as [<-|Hne]; [by rewrite lookup_insert|]. rewrite lookup_insert_ne by done. done. }
  destruct (I6 t th a Ht ltac:(rewrite Hk; left)) as (c0&Hc0&Hini). rewrite Hc in Hc0. injection Hc0 as <-.
  assert (Hgone : forall u thu (Hu : gc_thr st !! u = Some thu), exists y, <[t := GTH (gt_env th) k']> (gc_thr st) !! u = Some y /\ gt_env y = gt_env thu /\
            forall x, x <> a -> FDrop x ∈ gt_stk thu -> FDrop x ∈ gt_stk y).
  { intros u thu Hu. destruct (thr_get _ t (GTH (gt_env th) k') th u thu Ht Hu) as (y&Ey&[(->&->&->)|[Hne' ->]]); exists y || eexists; (split; [exact Ey|]); (split; [done|]); [|done].
    intros x Hx. simpl. rewrite Hk, Hdr. intros [[= ->]|Hin]%elem_of_cons; [done|]. by right. }
  split; simpl; [done|done|done|..].
  - intros x. rewrite (I4 x). destruct (decide (a = x)) as [<-|Hne]; [rewrite lookup_insert, Ha; split; eauto|]. by rewrite lookup_insert_ne.
  - intros u thu i x [[-> ->]|[Hne Hu]]%thr_put Hx; simpl in *; by eapply I5.
  - intros u thu x [[-> ->]|[Hne Hu]]%thr_put Hx; simpl in *; [|by eapply I6]. apply Hdr in Hx as [Hx|Hx].
    + destruct (I8 a 0 d x Ha Hx) as (cb&cx&H&Ecb&Ecx&EH&Hi). rewrite Hc in Ecb. injection Ecb as <-. exists cx. split; [done|].
      destruct (I2 t _ Hini) as (H'&E&Hs). rewrite EH in E. injection E as <-. by apply Hs.
    + eapply I6; [done|]. rewrite Hk. by right.
  - intros u thu x [[-> ->]|[Hne Hu]]%thr_put Hx; simpl in *; [|by eapply I7]. apply Hfr in Hx as [->|Hx]; [eauto|].
    eapply I7; [done|]. rewrite Hk. by right.
  - intros b n d' x [_ Hb]%Hxa Hx. by eapply I8.
  - intros x n d' c' e' [Hne Hx]%Hxa Hc' He'.
    destruct (I9 x n d' c' e' Hx Hc' He') as [c2 Hc2 Hr|u thu i b' U' y0 H0 Hu Hvu Hvs HU' Hy0 HH0|u thu Hu Hkk HV|b2 n2 d2 c2 y H2 Hb2 Hin Hc2 Hy Hh2 HH|Hun].
    + by eapply cov_rel.
    + destruct (Hgone u thu Hu) as (y&Ey&Ee&_). eapply cov_var; [exact Ey|by rewrite Ee|done|done|done|done].
    + destruct (Hgone u thu Hu) as (y&Ey&_&Es). eapply cov_pend; [exact Ey|by apply Es|done].
    + destruct (decide (b2 = a)) as [->|Hb2a].
      * rewrite Ha in Hb2. injection Hb2 as <- <-. rewrite Hc in Hc2. injection Hc2 as <-.
        eapply cov_pend; [simpl; rewrite list_lookup_insert by (by eapply lookup_lt_Some); reflexivity|simpl; apply Hdr; by left|].
        destruct (I2 t _ (Hacc _ Hy)) as (H'&E&Hs). rewrite Hh2 in E. injection E as <-. by apply Hs.
      * eapply cov_slot; [simpl; by rewrite lookup_insert_ne|done|done|done|done|done].
    + apply cov_none. destruct Hun as (Hu1&Hu2&Hu3). split; [|split]; simpl.
      * intros u thu i [[-> ->]|[Hne' Hu]]%thr_put; simpl; by eapply Hu1.
      * intros u thu [[-> ->]|[Hne' Hu]]%thr_put; simpl; [|by eapply Hu2]. rewrite Hdr. intros [Hin|Hin]; [exact (Hu3 a 1 d Ha Hin)|].
        apply (Hu2 t th Ht). rewrite Hk. by right.
      * intros b n2 d2 Hb Hin. destruct (decide (a = b)) as [<-|Hne'].
        -- rewrite lookup_insert in Hb. injection Hb as _ <-. by apply elem_of_nil in Hin.
        -- rewrite lookup_insert_ne in Hb by done. by eapply Hu3.
Qed.
(** memory is freed *)
Lemma rinv_free st M t th a k ck :
  rinv st M -> mfacts st -> gc_thr st !! t = Some th -> gt_stk th = FFree a :: k ->
  rinv (GCS (GST (delete a (gmm (gc_mem st))) ck) (<[t := GTH (gt_env th) k]> (gc_thr st)))
       (MON (mo_hist M) (mo_view M) (mo_vars M) (delete a (mo_cells M))).
Proof.
  intros HI HF Ht Hk. pose proof HI as [I1 I2 I3 I4 I5 I6 I7 I8 I9].
  destruct (mf_free _ HF t th a Ht ltac:(rewrite Hk; left)) as [d0 Ha]. destruct (mf_frees _ HF _ _ _ _ Ht Hk) as [F1 F2].
  assert (Hlive : forall x n d c, gmm (gc_mem st) !! x = Some (S n, d) -> mo_cells M !! x = Some c -> delete a (mo_cells M) !! x = Some c).
  { intros x n d c Hx Hc. rewrite lookup_delete_ne; [done|]. intros <-. congruence. }
  assert (Hdel : forall x v, delete a (gmm (gc_mem st)) !! x = Some v -> gmm (gc_mem st) !! x = Some v).
  { intros x v. rewrite lookup_delete_Some. by intros [_ ?]. }
  assert (Hold : forall u thu, <[t := GTH (gt_env th) k]> (gc_thr st) !! u = Some thu -> exists x0, gc_thr st !! u = Some x0 /\ gt_env thu = gt_env x0 /\
            (forall f, f ∈ gt_stk thu -> f ∈ gt_stk x0) /\ FFree a ∉ gt_stk thu).
  { intros u thu [[-> ->]|[Hne Hu]]%thr_put; simpl.
    - exists th. split; [done|]. split; [done|]. split; [|done]. intros f Hf. rewrite Hk. by right.
    - exists thu. split; [done|]. split; [done|]. split; [done|]. intros Hf. by apply Hne, (F1 u thu). }
  assert (Hgone : forall u thu, gc_thr st !! u = Some thu -> exists y, <[t := GTH (gt_env th) k]> (gc_thr st) !! u = Some y /\ gt_env y = gt_env thu /\
            forall x, FDrop x ∈ gt_stk thu -> FDrop x ∈ gt_stk y).
  { intros u thu Hu. destruct (thr_get _ t (GTH (gt_env th) k) th u thu Ht Hu) as (y&Ey&[(->&->&->)|[Hne' ->]]); eexists; (split; [exact Ey|]); (split; [done|]); [|done].
    intros x. simpl. rewrite Hk. by intros [[=]|Hin]%elem_of_cons. }
  split; simpl; [done|done|..].
  - intros x c. rewrite lookup_delete_Some. intros [_ ?]. by eapply I3.
  - intros x. destruct (decide (a = x)) as [<-|Hne]; [rewrite !lookup_delete; split; by intros [? ?]|]. rewrite !lookup_delete_ne by done. apply I4.
  - intros u thu i x Hu Hx. destruct (Hold u thu Hu) as (x0&Hx0&Ee&_). rewrite Ee in Hx.
    destruct (I5 _ _ _ _ Hx0 Hx) as (b&U&c&H&?&?&?&?&?). destruct (mf_var _ HF _ _ _ _ Hx0 Hx) as (n&d&Hn). exists b, U, c, H.
    split; [done|]. split; [done|]. split; [by eapply Hlive|]. done.
  - intros u thu x Hu Hx. destruct (Hold u thu Hu) as (x0&Hx0&_&Es&_). apply Es in Hx.
    destruct (I6 _ _ _ Hx0 Hx) as (c&?&?). destruct (mf_pend _ HF _ _ _ Hx0 Hx) as (n&d&Hn). exists c. split; [by eapply Hlive|done].
  - intros u thu x Hu Hx. destruct (Hold u thu Hu) as (x0&Hx0&_&Es&Hnf). destruct (I7 _ _ _ Hx0 (Es _ Hx)) as (c&?&?).
    exists c. split; [|done]. rewrite lookup_delete_ne; [done|]. by intros <-.
  - intros b n d x Hb%Hdel Hx. destruct (I8 _ _ _ _ Hb Hx) as (cb&cx&H&?&?&?&?). destruct (mf_slot _ HF _ _ _ _ Hb Hx) as (n'&d'&Hn).
    exists cb, cx, H. split; [by eapply Hlive|]. split; [by eapply Hlive|]. done.
  - intros x n d c e' Hx%Hdel Hcx He'. rewrite lookup_delete_Some in Hcx. destruct Hcx as [Hne Hcx].
    destruct (I9 x n d c e' Hx Hcx He') as [c2 Hc2 Hr|u thu i b' U' y0 H0 Hu Hvu Hvs HU' Hy0 HH0|u thu Hu Hkk HV|b2 n2 d2 c2 y H2 Hb2 Hin Hc2 Hy Hh2 HH|Hun].
    + eapply cov_rel; [simpl; by rewrite lookup_delete_ne|done].
    + destruct (Hgone u thu Hu) as (y&Ey&Ee&_). eapply cov_var; [exact Ey|by rewrite Ee|done|done|done|done].
    + destruct (Hgone u thu Hu) as (y&Ey&_&Es). eapply cov_pend; [exact Ey|by apply Es|done].
    + eapply cov_slot; [simpl; rewrite lookup_delete_ne; [done|by intros <-; congruence]|done|simpl; by eapply Hlive|done|done|done].
    + apply cov_none. destruct Hun as (Hu1&Hu2&Hu3). split; [|split]; simpl.
      * intros u thu i Hu. destruct (Hold u thu Hu) as (x0&Hx0&Ee&_). rewrite Ee. by eapply Hu1.
      * intros u thu Hu Hin. destruct (Hold u thu Hu) as (x0&Hx0&_&Es&_). eapply Hu2; [done|by apply Es].
      * intros b n2 d2 Hb%Hdel. by eapply Hu3.
Qed.

(** ** Steps *)
Lemma closed_ini hist (V : gset nat) b H i : closed hist V -> b ∈ V -> hist !! b = Some H -> i ∈ H -> i ∈ V.
Proof. intros HV Hb Hh Hi. destruct (HV b Hb) as (H'&E&Hs). rewrite Hh in E. injection E as <-. by apply Hs. Qed.
Lemma rinv_takes M t hs : forall st th xs env', rinv st M -> gc_thr st !! t = Some th -> g_move hs (gt_env th) = Some (xs, env') ->
  forallb (may_take M t) hs = true ->
  exists k, rinv (GCS (gc_mem st) (<[t := GTH env' k]> (gc_thr st))) M /\ forall f, f ∈ k <-> f ∈ map FDrop xs \/ f ∈ gt_stk th.
Proof.
  induction hs as [|h hs IH]; intros st th xs env' HI Ht; simpl.
  - intros [= <- <-] _. exists (gt_stk th). split.
    + eapply rinv_stk; [done|done|done|]. intros x Hx. by left.
    + intros f. simpl. rewrite elem_of_nil. naive_solver.
  - destruct (gt_env th !! h) as [[a|]|] eqn:Eh; [|done|done].
    destruct (g_move hs (<[h := None]> (gt_env th))) as [[xs1 env1]|] eqn:Em; [|done]. intros [= <- <-] [Hm Hms]%andb_true_iff.
    unfold may_take in Hm. destruct (mo_vars M !! (t, h)) as [[b U]|] eqn:Ev; [|done]. apply bool_decide_eq_true in Hm.
    pose proof (rinv_take st M t th h a b U HI Ht Eh Ev Hm) as HI1.
    destruct (IH _ (GTH (<[h := None]> (gt_env th)) (FDrop a :: gt_stk th)) xs1 env1 HI1) as (k&HI2&Hk); simpl.
    + rewrite list_lookup_insert; [done|by eapply lookup_lt_Some].
    + done.
    + done.
    + simpl in HI2. rewrite list_insert_insert in HI2. exists k. split; [done|]. intros f. rewrite Hk. simpl. rewrite !elem_of_cons. naive_solver.
Qed.
Lemma fill_shape pr xs : forall o h w r h', gs_fill pr o (map Own xs) h = (Ok (w, r), h') ->
  h' = h /\ match r with inl _ => map snd w = xs | inr rest => map snd w ++ map src_addr rest = xs end.
Proof.
  induction xs as [|x xs IH]; intros o h w r h'; simpl.
  - intros [= <- <- <-]. done.
  - unfold mbind at 1, gsm_bind at 1. simpl. unfold mbind at 1, gsm_bind at 1, gs_cell.
    destruct (gmm h !! x) as [[[|n] c]|] eqn:E; [done| |done]. destruct (l ← ctext_len c; add32 pr o l) as [o'|e] eqn:El.
    + unfold mbind, gsm_bind. destruct (gs_fill pr o' (map Own xs) h) as [[[w1 r1]|e] h1] eqn:Ef; [|done].
      intros [= <- <- <-]. destruct (IH _ _ _ _ _ Ef) as [-> Hr]. split; [done|]. destruct r1; simpl; by f_equal.
    + intros [= <- <- <-]. split; [done|]. simpl. f_equal. clear. induction xs; simpl; congruence.
Qed.
Lemma new_shape al pr k xs h r h' : t_new al pr k xs h = (Ok r, h') ->
  exists w tl, h' = GST (<[al (gck h) (dom (gmm h)) := (1, GCNode k tl w)]> (gmm h)) (S (gck h)) /\
    match r with inl a => a = al (gck h) (dom (gmm h)) /\ map snd w = xs | inr rest => map snd w ++ rest = xs end.
Proof.
  unfold t_new, mbind at 1, gsm_bind at 1. destruct (gs_fill pr 0%N (map Own xs) h) as [[[w r1]|e] h1] eqn:Ef; [|done].
  destruct (fill_shape _ _ _ _ _ _ _ Ef) as [-> Hr]. destruct r1 as [tl|rest]; unfold mbind, gsm_bind, gs_alloc, mret, gsm_ret; intros [= <- <-].
  - exists w, tl. done.
  - exists w, 0%N. done.
Qed.
Lemma concat_split {A B} (f : B -> list A) (cs : list B) : forall l1 x l2, concat (map f cs) = l1 ++ x :: l2 ->
  exists c m1 m2, c ∈ cs /\ f c = m1 ++ x :: m2 /\ forall y, y ∈ m1 -> y ∈ l1.
Proof.
  induction cs as [|c cs IH]; simpl; intros l1 x l2 H; [by destruct l1|].
  apply app_eq_inv in H as [(k&E1&E2)|(k&E1&E2)].
  - destruct k as [|y k]; simpl in *.
    + destruct (IH [] x l2) as (c'&m1&m2&?&?&Hm); [done|]. exists c', m1, m2. split; [by right|]. split; [done|].
      intros y Hy. apply Hm in Hy. by apply elem_of_nil in Hy.
    + injection E2 as -> E2. exists c, l1, k. split; [left|]. done.
  - destruct (IH k x l2 E2) as (c'&m1&m2&?&?&Hm). exists c', m1, m2. split; [by right|]. split; [done|].
    intros y Hy. rewrite E1. apply elem_of_app. right. by apply Hm.
Qed.
Lemma below_split (m : gmem) d : forall a l1 x l2, below d m a = l1 ++ x :: l2 ->
  x = a \/ exists b n c, b ∈ l1 /\ m !! b = Some (n, c) /\ x ∈ cslots c.
Proof.
  induction d as [|d IH]; intros a l1 x l2; simpl; [by destruct l1|]. destruct l1 as [|y l1]; simpl; [intros [= ->]; by left|].
  intros [= <- H]. destruct (m !! a) as [[n c]|] eqn:Ea; [|by destruct l1].
  destruct (concat_split _ _ _ _ _ H) as (c'&m1&m2&Hc&Hf&Hm). right. destruct (IH _ _ _ _ Hf) as [->|(b&n'&d'&Hb&?&?)].
  - exists a, n, c. split; [left|done].
  - exists b, n', d'. split; [right; by apply Hm|done].
Qed.
Lemma below_live st M (V : gset nat) d : rinv st M -> mfacts st -> closed (mo_hist M) V -> forall a n c,
  gmm (gc_mem st) !! a = Some (S n, c) -> (exists c, mo_cells M !! a = Some c /\ rc_ini c ∈ V) ->
  Forall (fun x => (exists n d, gmm (gc_mem st) !! x = Some (S n, d)) /\ exists c, mo_cells M !! x = Some c /\ rc_ini c ∈ V) (below d (gmm (gc_mem st)) a).
Proof.
  intros HI HF HV. induction d as [|d IH]; intros a n c Ha Hc; simpl; [constructor|]. constructor; [eauto|].
  rewrite Ha. apply Forall_concat, Forall_map, Forall_forall. intros x Hx.
  destruct (mf_slot _ HF _ _ _ _ Ha Hx) as (n'&d'&Hx'). apply (IH x n' d' Hx').
  destruct (ri_slot _ _ HI _ _ _ _ Ha Hx) as (cb&cx&H&Eb&Ex&EH&Hi). destruct Hc as (c0&Hc0&Hi0). rewrite Eb in Hc0. injection Hc0 as <-.
  exists cx. split; [done|]. by eapply closed_ini.
Qed.
