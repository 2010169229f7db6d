(** * Theorems: green trees shared by threads (C84)

    [t_run al pr p (t_init n)] runs [n] threads on one memory of green trees, in the order the
    schedule [p] says; every atomic operation on a count is one step, so other threads run in the
    middle of a drop (Threads.v).  [ts_run pr p (ts_init n) = Some _] says that the program
    compiles, and what every thread computes on trees. *)
From Verif Require Import ThreadsFacts.
Local Open Scope nat_scope.

(** thread 0 builds a node over a shared token and hands clones of it to threads 1 and 2 *)
Definition ex_share : list (nat * tact) :=
  [(0, TToken 1 [97%N]); (0, TClone 0 0); (0, TNode 2 [0; 1]); (0, TClone 0 2); (0, TSend 2 1); (0, TSend 3 2)].
(** threads 1 and 2: 2 takes the token out and drops the node; 1 drops the node, 2 reads the token in between *)
Definition ex_race : list (nat * tact) :=
  [(2, TChild 2 0 1); (1, TRead 1 0); (1, TDrop 0); (2, TDrop 0); (2, TStep); (1, TStep); (1, TStep); (2, TRead 2 1);
   (1, TStep); (2, TStep); (1, TStep); (2, TRead 2 1)].
(** example *)
Definition ex_race_obs : list (nat * gobs) :=
  [(2, OHandle); (1, OTree (Node 2 [Token 1 [97%N]; Token 1 [97%N]])); (1, OUnit); (2, OUnit); (2, OUnit); (1, OUnit); (1, OUnit);
   (2, OTree (Token 1 [97%N])); (1, OUnit); (2, OUnit); (1, OUnit); (2, OTree (Token 1 [97%N]))].

(** under every schedule no thread reads or frees freed memory, every read gives the tree that
    was built, and every handle reads as the tree its variable stands for *)
Theorem c84_schedules al pr n p obs senvs lk :
  galloc_ok al -> ts_run pr p (ts_init n) = Some (obs, (senvs, lk)) ->
  exists st, t_run al pr p (t_init n) = Ok (obs, st) /\
    Forall2 (fun th senv =>
      Forall2 (fun o t => match o, t with Some a, Some t => reads (gmm (gc_mem st)) a t | None, None => True | _, _ => False end)
        (gt_env th) senv) (gc_thr st) senvs.
Proof.
  intros Hal Hs. destruct (t_run_ok al pr Hal p _ _ _ _ _ _ (trel_init pr n) Hs) as (st&gs&lkg&E&HT).
  exists st. split; [done|]. pose proof HT as [T1 [= -> _] T3 _ _ _]. rewrite T1.
  assert (HF : forall g, g ∈ concat (map held gs) -> stored (gmm (gc_mem st)) g).
  { intros g Hin. eapply stored_in; [done|]. apply elem_of_app. by left. }
  clear -HF. induction gs as [|[genv k] gs IH]; simpl; constructor.
  - assert (HF' : forall g, g ∈ hs_of genv -> stored (gmm (gc_mem st)) g).
    { intros g Hin. apply HF. simpl. apply elem_of_app. left. unfold held. apply elem_of_app. by left. }
    clear -HF'. unfold env_of. cbn [fst]. induction genv as [|[g|] genv IH]; simpl; constructor; [apply stored_reads, HF'; left| |done|].
    + apply IH. intros x Hx. apply HF'. by right.
    + apply IH. intros x Hx. by apply HF'.
  - apply IH. intros g Hin. apply HF. simpl. apply elem_of_app. by right.
Qed.
Print Assumptions c84_schedules.

(** at every moment every count is exactly the number of handles of all threads, of pointers about
    to be dropped, of leaked nodes and of stored pointers; it is 0 exactly for the allocations
    that one thread is about to free *)
Theorem c84_counts al pr n p obs senvs lk :
  galloc_ok al -> ts_run pr p (ts_init n) = Some (obs, (senvs, lk)) ->
  exists st leaked, t_run al pr p (t_init n) = Ok (obs, st) /\ Forall2 (reads (gmm (gc_mem st))) leaked lk /\
    (forall (a : addr) m c, gmm (gc_mem st) !! a = Some (m, c) ->
       m = count_occ Nat.eq_dec (all_handles st ++ to_drop st ++ leaked) a + pointers_to (gmm (gc_mem st)) a /\
       (m = 0 <-> a ∈ to_free st)).
Proof.
  intros Hal Hs. destruct (t_run_ok al pr Hal p _ _ _ _ _ _ (trel_init pr n) Hs) as (st&gs&lkg&E&HT).
  exists st, (map gaddr lkg). split; [done|]. pose proof HT as [T1 [= _ ->] T3 T4 _ _]. split.
  - assert (HF : forall g, g ∈ lkg -> stored (gmm (gc_mem st)) g).
    { intros g Hin. eapply stored_in; [done|]. apply elem_of_app. by right. }
    clear -HF. induction lkg as [|g lkg IH]; simpl; constructor; [apply stored_reads, HF; left|].
    apply IH. intros x Hx. apply HF. by right.
  - intros a m c Ha. split.
    + rewrite pointers_to_refs, (gi_count _ _ T3 _ _ _ Ha). rewrite occ_app. f_equal. rewrite map_app.
      apply occ_perm. by rewrite app_assoc, (pointers_of _ _ _ _ _ HT).
    + rewrite (to_free_of _ _ _ _ _ HT), <-(T4 a). split; [intros ->; eauto|]. intros [d Hd]. rewrite Ha in Hd. by injection Hd.
Qed.
Print Assumptions c84_counts.

(** a thread that is about to free an allocation has it for itself: no other thread frees it too,
    and it cannot be reached from any handle or from any pointer that is still to be dropped *)
Theorem c84_exclusive al pr n p obs sst st :
  galloc_ok al -> ts_run pr p (ts_init n) = Some (obs, sst) -> t_run al pr p (t_init n) = Ok (obs, st) ->
  NoDup (to_free st) /\
  forall a b : addr, a ∈ to_free st -> b ∈ all_handles st ++ to_drop st -> ~ reaches (gmm (gc_mem st)) b a.
Proof.
  intros Hal Hs E0. destruct (t_run_ok al pr Hal p _ _ _ _ _ _ (trel_init pr n) Hs) as (st'&gs&lkg&E&HT).
  rewrite E in E0. injection E0 as ->. split; [rewrite (to_free_of _ _ _ _ _ HT); apply HT|].
  intros a b Ha Hb Hr. rewrite (pointers_of _ _ _ _ _ HT) in Hb. apply elem_of_map in Hb as (g&->&Hg).
  destruct (stored_reach (gmm (gc_mem st)) g a) as (m&c&Hc); [|done|].
  - eapply stored_in; [apply HT|]. apply elem_of_app. by left.
  - rewrite (to_free_of _ _ _ _ _ HT) in Ha. apply (tr_dead _ _ _ _ _ HT) in Ha as [d Hd]. congruence.
Qed.
Print Assumptions c84_exclusive.

(** drops end: whatever the threads have done, if each of them then takes at least as many steps
    as there are counts and allocations, in any order, no drop is in progress any more *)
Theorem c84_drops_end al pr n p obs sst :
  galloc_ok al -> ts_run pr p (ts_init n) = Some (obs, sst) ->
  exists st, t_run al pr p (t_init n) = Ok (obs, st) /\
    forall ts, Forall (fun t => t < n) ts -> (forall t, t < n -> work (gmm (gc_mem st)) < count_occ Nat.eq_dec ts t) ->
    exists st', t_run al pr (drops ts) st = Ok (map (fun t => (t, OUnit)) ts, st') /\ all_idle st'.
Proof.
  intros Hal Hs. destruct (t_run_ok al pr Hal p _ _ _ _ _ _ (trel_init pr n) Hs) as (st&gs&lkg&E&HT).
  exists st. split; [done|]. intros ts HF Hc.
  assert (Hlen : forall q s b s', ts_run pr q s = Some (b, s') -> length s'.1 = length s.1).
  { clear. induction q as [|[t o] q IH]; intros s b s'; simpl; [by intros [= _ <-]|].
    destruct (ts_step pr t o s) as [[b1 s1]|] eqn:E1; [|done]. destruct (ts_run pr q s1) as [[b2 s2]|] eqn:E2; [|done].
    intros [= _ <-]. rewrite (IH _ _ _ E2). clear -E1. unfold ts_step in E1. destruct (s.1 !! t); [|done].
    destruct o; repeat case_match; simplify_eq; simpl; by rewrite ?insert_length. }
  assert (Hn : length sst.1 = n) by (rewrite (Hlen _ _ _ _ Hs); simpl; apply replicate_length).
  destruct (t_run_ok al pr Hal (drops ts) _ _ _ _ _ _ HT (drops_spec pr ts sst ltac:(by rewrite Hn))) as (st'&gs'&lkg'&E'&HT').
  exists st'. split; [done|]. apply Forall_lookup. intros u th Hu.
  destruct (gt_stk th) as [|f k] eqn:Ek; [done|]. exfalso.
  destruct (still_busy al pr ts st _ st' u th E' Hu ltac:(by rewrite Ek)) as [Hw _].
  assert (Hun : u < n).
  { rewrite <-Hn. apply lookup_lt_Some in Hu. pose proof HT' as [T1 T2 _ _ _ _]. rewrite T1, map_length in Hu. rewrite T2. simpl. by rewrite map_length. }
  specialize (Hc u Hun). lia.
Qed.
Print Assumptions c84_drops_end.

(** once no drop is in progress, every allocation can be reached from a handle of some thread;
    when all threads have dropped all handles no memory is in use *)
Theorem c84_no_leak al pr n p obs senvs st :
  galloc_ok al -> ts_run pr p (ts_init n) = Some (obs, (senvs, [])) -> t_run al pr p (t_init n) = Ok (obs, st) -> all_idle st ->
  (forall a : addr, a ∈ dom (gmm (gc_mem st)) -> exists b, b ∈ all_handles st /\ reaches (gmm (gc_mem st)) b a) /\
  (all_handles st = [] -> gmm (gc_mem st) = ∅).
Proof.
  intros Hal Hs E0 Hid. destruct (t_run_ok al pr Hal p _ _ _ _ _ _ (trel_init pr n) Hs) as (st'&gs&lkg&E&HT).
  rewrite E in E0. injection E0 as ->. pose proof HT as [_ [= _ Hl] _ _ _ _]. symmetry in Hl. apply map_eq_nil in Hl as ->.
  pose proof (idle_gok _ _ _ _ _ HT Hid) as Hok. rewrite app_nil_r in Hok.
  pose proof (pointers_of _ _ _ _ _ HT) as Hp. rewrite (proj1 (idle_of _ _ _ _ _ HT Hid)), app_nil_r in Hp. split.
  - intros a Ha. destruct (gok_reach _ _ _ Hok Ha) as (g&Hin&Hr). exists (gaddr g). split; [|done].
    rewrite Hp. apply elem_of_map. eauto.
  - intros Hn. rewrite Hn in Hp. apply Permutation_nil, map_eq_nil in Hp. rewrite Hp in Hok. by apply gok_nil.
Qed.
Print Assumptions c84_no_leak.

(** what a thread sees does not depend on the others: after any common beginning, if the threads
    keep to their own handles, each of them observes what it would observe running alone *)
Theorem c84_alone al pr n p0 p obs0 obs s0 s1 t :
  galloc_ok al -> ts_run pr p0 (ts_init n) = Some (obs0, s0) -> ts_run pr p s0 = Some (obs, s1) ->
  Forall (fun x => own_step x.1 x.2) p ->
  exists st0 st1 st1', t_run al pr p0 (t_init n) = Ok (obs0, st0) /\
    t_run al pr p st0 = Ok (obs, st1) /\ t_run al pr (only t p) st0 = Ok (only t obs, st1').
Proof.
  intros Hal H0 H1 Ho. destruct (t_run_ok al pr Hal p0 _ _ _ _ _ _ (trel_init pr n) H0) as (st0&gs0&lkg0&E0&HT0).
  destruct (t_run_ok al pr Hal p _ _ _ _ _ _ HT0 H1) as (st1&gs1&lkg1&E1&_).
  destruct (own_run pr t p s0 s0 obs s1 Ho eq_refl H1) as (s2&H2&_).
  destruct (t_run_ok al pr Hal _ _ _ _ _ _ _ HT0 H2) as (st2&gs2&lkg2&E2&_).
  by exists st0, st1, st2.
Qed.
Print Assumptions c84_alone.

(** the race above: the program compiles, the threads keep to their own handles after the handles
    are handed out; after it one thread has still to finish freeing, and the token is alive *)
Example c84_nonvacuous :
  (exists obs0 s0 senvs, ts_run Checked ex_share (ts_init 3) = Some (obs0, s0) /\
     ts_run Checked ex_race s0 = Some (ex_race_obs, (senvs, [])) /\ Forall (fun x => own_step x.1 x.2) ex_race) /\
  (* in the middle of the race thread 1 is about to free the node *)
  match t_run ex_al Checked (ex_share ++ take 6 ex_race) (t_init 3) with
  | Ok (_, st) => length (to_free st) = 1 /\ length (to_drop st) = 2 /\ length (all_handles st) = 1 /\ size (gmm (gc_mem st)) = 2
  | Err _ => False
  end /\
  (* at the end only the token is left, and the drops are over *)
  match t_run ex_al Checked (ex_share ++ ex_race) (t_init 3) with
  | Ok (_, st) => length (all_handles st) = 1 /\ size (gmm (gc_mem st)) = 1 /\ map gt_stk (gc_thr st) = [[]; []; []]
  | Err _ => False
  end.
Proof.
  split; [|split].
  - eexists _, _, _. split; [reflexivity|]. split; [reflexivity|]. repeat constructor.
  - vm_compute. repeat split.
  - vm_compute. repeat split.
Qed.
(** a construction that panics (see [doubling] in PropertiesStore.v) while thread 1 holds a clone of what
    it is made of: one handle was not consumed and waits to be dropped, one allocation leaks *)
Example c84_panic :
  match t_run ex_al Checked ((0, TToken 1 [97%N]) ::
      concat (map (fun j => [(0, TClone 0 (2 * j)); (0, TNode 2 [2 * j; 2 * j + 1])]) (seq 0 31)) ++
      [(0, TClone 0 62); (1, TClone 0 62); (0, TNode 2 [62; 63]); (1, TChild 1 0 1)]) (t_init 2) with
  | Ok (obs, st) => drop 65 obs = [(0, OPanic); (1, OHandle)] /\ length (to_drop st) = 1 /\ length (all_handles st) = 2 /\ size (gmm (gc_mem st)) = 33
  | Err _ => False
  end.
Proof. vm_compute. repeat split. Qed.
