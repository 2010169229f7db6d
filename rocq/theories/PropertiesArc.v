(** * Theorems: reference counting (C48)

    [a_reaches T st]: [T] threads, starting with one thread holding the only handle of a
    new allocation, can get to [st] by any sequence of clones, reads, drops, forgets,
    [get_mut]s with writes, and hand-overs (Arc.v).  Atomic operations are split into
    their steps, so the steps of the threads interleave; loads may return old values as
    far as the memory model lets them. *)
From Verif Require Import ArcFacts.

(** three threads: 0 clones the handle twice and hands the clones over; 1 reads and drops,
    0 drops, 2 drops last and frees *)
Definition run3 : list act :=
  [ACloneAdd 0 0; ACloneCheck 0; ACloneAdd 0 0; ASync 0 1; ACloneCheck 0; ASync 0 2;
   ARead 1 1; ADropSub 1 1; ARead 2 2; ADropSub 0 0; ADropSub 2 2; ADropLoad 2 5; AFree 2].
(** example *)
Definition end3 : ast := match arun run3 (a_init 3) with Some st => st | None => a_init 3 end.
Example run3_reaches : a_reaches 3 end3.
Proof. exists run3. by vm_compute. Qed.
(** two threads: 0 makes a clone for 1; 1 reads and drops it; 0 then has unique access and writes *)
Definition run2 : list act :=
  [ACloneAdd 0 0; ACloneCheck 0; ASync 0 1; ARead 1 1; ADropSub 1 1; AGetMut 0 0 2; AWrite 0].
(** example *)
Definition end2 : ast := match arun run2 (a_init 2) with Some st => st | None => a_init 2 end.
Example run2_reaches : a_reaches 2 end2.
Proof. exists run2. by vm_compute. Qed.

(** ** C48 *)
(** no access after the memory was freed, no data race (between reads, writes, the drop of
    the data and the freeing), no second free *)
Theorem c48_no_race T st : 1 <= T -> (N.of_nat T < 2 ^ 63)%N -> a_reaches T st -> bad st = false.
Proof. intros H1 HT H. apply d_bad, i_D with T. by apply inv_reaches. Qed.
Print Assumptions c48_no_race.
(** the flag can be set: here by freeing while thread 1 still holds a handle *)
Example c48_bad_possible : exists st, bad st = true /\
  do_free 0 ∅ (a_init 2) = Some st.
Proof. eexists. split; [|reflexivity]. by vm_compute. Qed.

(** freed at most once, and only when every handle ever made has been dropped and nobody is
    in the middle of making another *)
Theorem c48_freed_once T st : 1 <= T -> (N.of_nat T < 2 ^ 63)%N -> a_reaches T st ->
  freed st <= 1 /\
  (freed st = 1 ->
    (forall h s c, hs st !! h = Some (s, c) -> s = Dropped) /\
    (forall t V old e, thr st !! t <> Some (TH V (Cloning old e)))).
Proof.
  intros H1 HT H. apply inv_reaches in H; [|done..]. destruct (b_freed _ _ (i_B _ _ H)) as [Hle Hz]. split; [done|].
  intros E. specialize (Hz E). split.
  - intros h s c Hh. destruct (dead_all_dropped st h) as (c'&Hc'); [unfold total in *; lia..|by eapply lookup_lt_Some|]. congruence.
  - intros t V old e Ht. pose proof (cloning_pos _ _ _ _ _ Ht). unfold total in *. lia.
Qed.
Print Assumptions c48_freed_once.
Example c48_freed_once_nonvacuous : freed end3 = 1 /\ length (hs end3) = 3 /\ bad end3 = false.
Proof. by vm_compute. Qed.

(** the memory does get freed: when every handle is gone and no thread is in the middle of
    something, it has been freed *)
Theorem c48_freed_in_the_end T st : 1 <= T -> (N.of_nat T < 2 ^ 63)%N -> a_reaches T st ->
  (forall h s c, hs st !! h = Some (s, c) -> s = Dropped) ->
  (forall t V p, thr st !! t = Some (TH V p) -> p = Idle) -> freed st = 1.
Proof.
  intros H1 HT H Hd Hi. apply inv_reaches in H; [|done..].
  assert (total st = 0) as Hz.
  { unfold total, nL, nF, nP. rewrite !(proj2 (cnt_zero _ _)); [done|..].
    - intros i [s c] Hc. by rewrite (Hd _ _ _ Hc).
    - intros i [V p] Ht. by rewrite (Hi _ _ _ Ht).
    - intros i [s c] Hc. by rewrite (Hd _ _ _ Hc). }
  destruct (b_exact _ _ (i_B _ _ H) Hz) as [?|(t&[V p]&Ht&Hx)]; [done|]. by rewrite (Hi _ _ _ Ht) in Hx.
Qed.
Print Assumptions c48_freed_in_the_end.
Example c48_freed_in_the_end_nonvacuous :
  forallb (fun x => match x.1 with Dropped => true | _ => false end) (hs end3) = true /\
  forallb (fun x => match t_pend x with Idle => true | _ => false end) (thr end3) = true.
Proof. by vm_compute. Qed.

(** the thread that dropped the last handle is never stuck: its load has a value to take and
    whichever it takes it frees the memory *)
Theorem c48_freeing_finishes T st t V h : 1 <= T -> (N.of_nat T < 2 ^ 63)%N -> a_reaches T st -> aborted st = false ->
  thr st !! t = Some (TH V (Dropping h)) ->
  (exists i st', astep (ADropLoad t i) st = Some st') /\
  (forall i st', astep (ADropLoad t i) st = Some st' -> exists st'', astep (AFree t) st' = Some st'' /\ freed st'' = 1 /\ bad st'' = false).
Proof.
  intros H1 HT H Ha Ht. apply inv_reaches in H as Hinv; [|done..]. split.
  - destruct (last (msgs st)) as [m|] eqn:Hl; [|apply last_None in Hl; by destruct (a_msgs _ (i_A _ _ Hinv))].
    apply last_elem in Hl as (i&Hi&Ei). exists i. unfold astep. rewrite Ha, Ht. simpl. unfold do_drop_load.
    assert (readable st V i = true) as ->.
    { apply readable_spec. intros j m' Hj Hlt. apply lookup_lt_Some in Hj. lia. }
    simpl. rewrite Hi. simpl. eauto.
  - intros i st' Hs. pose proof (inv_step _ _ _ _ HT Hinv Hs) as Hinv'. apply astep_shape in Hs as [_ Hs]. inversion Hs as [| | | | | | | | | | |t0 h0 i0 V0 m H4 H5 H6 H7| |]; subst.
    rewrite Ht in H4. injection H4 as <- <-. set (st' := set_thr _ _ _) in *.
    assert (thr st' !! t = Some (TH (V ∪ {[length (evs st)]} ∪ m_rel m) Freeing)) as Ht'.
    { unfold st'. fields. apply list_lookup_insert. by eapply lookup_lt_Some. }
    assert (exists st'', astep (AFree t) st' = Some st'') as [st'' Hs''].
    { unfold astep. replace (aborted st') with false by done. rewrite Ht'. simpl. unfold do_free. eauto. }
    exists st''. split; [done|]. pose proof (inv_step _ _ _ _ HT Hinv' Hs'') as Hinv''. split; [|exact (d_bad _ (i_D _ _ Hinv''))].
    apply astep_shape in Hs'' as [_ Hs'']. inversion Hs'' as [| | | | | | | | | | | |t0 V0 H4 H8|]; subst. simpl.
    destruct (b_drop _ _ (i_B _ _ Hinv) _ _ Ht eq_refl) as [_ F]. by rewrite F.
Qed.
Print Assumptions c48_freeing_finishes.
Example c48_freeing_finishes_nonvacuous : exists st V, arun (take 11 run3) (a_init 3) = Some st /\ thr st !! 2 = Some (TH V (Dropping 2)) /\ aborted st = false.
Proof. eexists _, _. split_and!; [by vm_compute..]. Qed.

(** dropping frees exactly when this was the last reference: the thread goes on to free the
    memory iff all other handles are dropped and no clone is under way *)
Theorem c48_last_drop T st st' t h : 1 <= T -> (N.of_nat T < 2 ^ 63)%N -> a_reaches T st -> astep (ADropSub t h) st = Some st' ->
  ((exists V, thr st' !! t = Some (TH V (Dropping h))) <->
    (forall h' s c, hs st !! h' = Some (s, c) -> h' <> h -> s = Dropped) /\
    (forall t' V old e, thr st !! t' <> Some (TH V (Cloning old e)))).
Proof.
  intros H1 HT H Hs. apply inv_reaches in H as Hinv; [|done..]. apply astep_shape in Hs as [_ Hs].
  inversion Hs as [| | | | | | | | | |t0 h0 V m c H4 H5 H6 H7 H8| | |]; subst. fields.
  pose proof (b_count _ _ (i_B _ _ Hinv) _ H6) as Hc. pose proof (counted_live _ _ _ H7) as HL.
  rewrite list_lookup_insert by (by eapply lookup_lt_Some). split.
  - intros [V' HV']. injection HV' as HV' Hp. destruct (N.eqb_spec (m_val m) 1) as [E|]; [|done]. assert (total st = 1) as ET by lia.
    split.
    + intros h' s c' Hh' Hne. destruct (sole_others_dropped _ _ h' _ H7 eq_refl) as (c0&Hc0); [unfold total in *; lia..|by eapply lookup_lt_Some|done|]. congruence.
    + intros t' V0 old e Ht'. pose proof (cloning_pos _ _ _ _ _ Ht'). unfold total in *. lia.
  - intros [Hd Hn]. exists (V ∪ {[length (evs st)]}). assert (total st = 1) as ET; [|replace (m_val m =? 1)%N with true by lia; done].
    unfold total. assert (nP st = 0) as ->.
    { apply cnt_zero. intros i [V0 p] Hi. destruct p; try done. by destruct (Hn _ _ _ _ Hi). }
    assert (nF st = 0) as ->.
    { apply cnt_zero. intros i [s0 c0] Hi. destruct (decide (i = h)) as [->|Hne]; [by rewrite H7 in Hi; injection Hi as <- <-|]. by rewrite (Hd _ _ _ Hi Hne). }
    pose proof (cnt_insert counted _ _ _ (Dropped, c) H7) as E. simpl in E. fold (nL st) in E. rewrite (proj2 (cnt_zero _ _)) in E; [lia|].
    intros i [s0 c0] Hi. apply list_lookup_insert_Some in Hi as [(->&[= <- <-]&_)|[Hne Hi]]; [done|]. by rewrite (Hd _ _ _ Hi (not_eq_sym Hne)).
Qed.
Print Assumptions c48_last_drop.
Example c48_last_drop_nonvacuous : exists st st' st'' st3,
  arun (take 7 run3) (a_init 3) = Some st /\ astep (ADropSub 1 1) st = Some st' /\ (exists V, thr st' !! 1 = Some (TH V Idle)) /\
  arun (take 10 run3) (a_init 3) = Some st'' /\ astep (ADropSub 2 2) st'' = Some st3 /\ (exists V, thr st3 !! 2 = Some (TH V (Dropping 2))).
Proof. eexists _, _, _, _. split_and!; try (by vm_compute); eexists; by vm_compute. Qed.

(** unique access is granted only to the only reference: while a thread holds the [&mut] of
    [get_mut] through [h], every other handle has been dropped, no clone is under way, and no
    other thread holds such a reference *)
Theorem c48_unique T st t V h : 1 <= T -> (N.of_nat T < 2 ^ 63)%N -> a_reaches T st -> thr st !! t = Some (TH V (Unique h)) ->
  (forall h' s c, hs st !! h' = Some (s, c) -> h' <> h -> s = Dropped) /\
  (forall t' V' old e, thr st !! t' <> Some (TH V' (Cloning old e))) /\
  (forall t' V' h', thr st !! t' = Some (TH V' (Unique h')) -> t' = t) /\
  freed st = 0 /\
  (forall i e, evs st !! i = Some e -> i ∈ V).
Proof.
  intros H1 HT H Ht. apply inv_reaches in H as Hinv; [|done..]. destruct (b_uniq _ _ (i_B _ _ Hinv) _ _ _ Ht) as ((c&Hc)&NL&NP&NF). split_and!.
  - intros h' s c' Hh' Hne. destruct (sole_others_dropped _ _ h' _ Hc eq_refl NL NF) as (c0&Hc0); [by eapply lookup_lt_Some|done|]. congruence.
  - intros t' V0 old e Ht'. pose proof (cloning_pos _ _ _ _ _ Ht'). lia.
  - intros t' V' h' Ht'. exact (b_uniq1 _ _ (i_B _ _ Hinv) _ _ _ _ _ _ Ht' Ht).
  - apply (live_not_freed _ _ (i_B _ _ Hinv)). lia.
  - intros i e Hi. exact (d_U _ (i_D _ _ Hinv) _ _ _ _ _ Ht Hi).
Qed.
Print Assumptions c48_unique.
Example c48_unique_nonvacuous : (exists V, thr end2 !! 0 = Some (TH V (Unique 0))) /\ length (hs end2) = 2.
Proof. split; [eexists|]; by vm_compute. Qed.

(** a handle that was never cloned has unique access whatever the other threads do: the
    [unwrap] of green/node.rs:227 cannot fail *)
Theorem c48_fresh_unique T st st' t i c : 1 <= T -> (N.of_nat T < 2 ^ 63)%N -> a_reaches T st ->
  hs st = [(Live, c)] -> (forall t' V old e, thr st !! t' <> Some (TH V (Cloning old e))) ->
  astep (AGetMut t 0 i) st = Some st' -> exists V, thr st' !! t = Some (TH V (Unique 0)).
Proof.
  intros H1 HT H Hh Hn Hs. apply inv_reaches in H as Hinv; [|done..]. pose proof (i_E _ _ Hinv) as HE. unfold invE in HE.
  assert (nP st = 0) as HP. { apply cnt_zero. intros j [V0 p] Hj. destruct p; try done. by destruct (Hn _ _ _ _ Hj). }
  rewrite HP, Hh in HE. simpl in HE. assert (nL st = 1) as HL by (unfold nL; by rewrite Hh). assert (nF st = 0) as HF by (unfold nF; by rewrite Hh).
  assert (Hval : forall m, msgs st !! i = Some m -> m_val m = 1%N).
  { intros m Hm. rewrite (b_count _ _ (i_B _ _ Hinv) m); [unfold total; lia|]. rewrite last_lookup, HE. simpl. destruct i as [|i]; [done|]. apply lookup_lt_Some in Hm. lia. }
  apply astep_shape in Hs as [_ Hs]. inversion Hs as [| | | | |t0 h0 i0 V m H4 H5 H6 H7 H8 H9|t0 h0 i0 V m c0 H4 H5 H6 H7 H8 H9 H10| | | | | | |]; subst.
  - by rewrite (Hval _ H7) in H8.
  - eexists. fields. apply list_lookup_insert. by eapply lookup_lt_Some.
Qed.
Print Assumptions c48_fresh_unique.
Example c48_fresh_unique_nonvacuous : exists st', astep (AGetMut 0 0 0) (a_init 3) = Some st' /\ hs (a_init 3) = [(Live, 0)].
Proof. eexists. split; by vm_compute. Qed.
(** with another handle about, [get_mut] refuses, and it may do so on a stale count: thread 0 has
    not been told of the drop by thread 1 *)
Example c48_stale_refusal : exists st V,
  arun [ACloneAdd 0 0; ACloneCheck 0; ASync 0 1; ADropSub 1 1; AGetMut 0 0 1] (a_init 2) = Some st /\ thr st !! 0 = Some (TH V Idle).
Proof. eexists _, _. split; by vm_compute. Qed.

(** the count is exact: handles not dropped (forgotten ones included) plus clones under way;
    and it never wraps around *)
Theorem c48_count T st m : 1 <= T -> (N.of_nat T < 2 ^ 63)%N -> a_reaches T st -> last (msgs st) = Some m ->
  m_val m = N.of_nat (length (filter (fun x => x.1 <> Dropped) (hs st)) + length (filter (fun x => cloning x = true) (thr st))) /\
  (m_val m < 2 ^ 64)%N.
Proof.
  intros H1 HT H Hl. apply inv_reaches in H as Hinv; [|done..]. rewrite (b_count _ _ (i_B _ _ Hinv) _ Hl).
  assert (total st = length (filter (fun x => x.1 <> Dropped) (hs st)) + length (filter (fun x => cloning x = true) (thr st))) as E.
  { unfold total, nL, nF, nP. rewrite <- Nat.add_assoc, (Nat.add_comm (cnt cloning _)), Nat.add_assoc. f_equal.
    - clear. induction (hs st) as [|[s c] l IH]; [done|]. rewrite filter_cons. simpl. destruct s; simpl; lia.
    - clear. induction (thr st) as [|x l IH]; [done|]. rewrite filter_cons. simpl. destruct (cloning x); simpl; lia. }
  split; [by rewrite E|]. pose proof (b_bound _ _ (i_B _ _ Hinv)) as Hb. pose proof (cnt_le overflowing (thr st)) as Ho. rewrite (b_len _ _ (i_B _ _ Hinv)) in Ho. fold (nO st) in Ho.
  change (2 ^ 64)%N with (2 ^ 63 + 2 ^ 63)%N. lia.
Qed.
Print Assumptions c48_count.
Example c48_count_nonvacuous : exists st m, arun (take 5 run3) (a_init 3) = Some st /\ last (msgs st) = Some m /\ m_val m = 3%N.
Proof. eexists _, _. split_and!; by vm_compute. Qed.

(** every reference keeps the data alive: as long as a handle has not been dropped the memory
    is not freed *)
Theorem c48_alive T st h s c : 1 <= T -> (N.of_nat T < 2 ^ 63)%N -> a_reaches T st -> hs st !! h = Some (s, c) -> s <> Dropped -> freed st = 0.
Proof.
  intros H1 HT H Hh Hs. destruct (c48_freed_once T st H1 HT H) as [Hle Hf].
  destruct (freed st) as [|[|n]]; [done| |lia]. destruct (Hf eq_refl) as [Hd _]. by destruct (Hs (Hd _ _ _ Hh)).
Qed.
Print Assumptions c48_alive.
Example c48_alive_nonvacuous : exists st c, arun (take 10 run3) (a_init 3) = Some st /\ hs st !! 2 = Some (Live, c).
Proof. eexists _, _. split; by vm_compute. Qed.
