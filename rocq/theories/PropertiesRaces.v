(** * Theorems: no data races on shared green trees (C85)

    [r_run al pr p (t_init n) mon_init] runs [n] threads on one memory of green trees (as [t_run], C84)
    beside a monitor of happens-before with the orderings of arc.rs: relaxed increments, release
    decrements, an acquire load by whoever finds 1 (Races.v).  It is [Err UB] as soon as
    an allocation is accessed before its initialisation is known to have happened, or destroyed or freed before
    every access to it is known to have happened; [Err Diverge] if the type checker would have refused the
    program; else it is what the threads observe. *)
From Verif Require Import RacesSteps.
Local Open Scope nat_scope.

(** helper: a step *)
Local Notation "t ! o" := (t, RDo o) (at level 30).
(** thread 0 builds a node over a shared token and hands clones of it to threads 1 and 2 *)
Definition ex_give : list (nat * ract) :=
  [0 ! TToken 1 [97%N]; 0 ! TClone 0 0; 0 ! TNode 2 [0; 1]; 0 ! TClone 0 2; 0 ! TSend 2 1; 0 ! TSend 3 2].
(** threads 1 and 2 then drop the node; 2 has taken the token out and reads it while 1 drops the node for good *)
Definition ex_drop : list (nat * ract) :=
  [2 ! TChild 2 0 1; 1 ! TRead 1 0; 1 ! TDrop 0; 2 ! TDrop 0; 2 ! TStep; 1 ! TStep; 1 ! TStep; 2 ! TRead 2 1;
   1 ! TStep; 1 ! TStep; 2 ! TDrop 1; 2 ! TStep; 2 ! TStep].
(** thread 1 borrows from thread 0, [sync] lies between its use and the drop by thread 0 *)
Definition ex_borrow (sync : list (nat * ract)) : list (nat * ract) :=
  [0 ! TToken 1 [97%N]; (0, RSync 1); 1 ! TClone 0 0; 1 ! TRead 0 0] ++ sync ++ [0 ! TDrop 0; 0 ! TStep; 1 ! TRead 1 0; 1 ! TDrop 0; 1 ! TStep; 1 ! TStep].

(** no schedule of a program that compiles has a data race: either the type checker would have refused
    the program, or all is defined and the threads observe what they compute on trees *)
Theorem c85_race_free al pr n p obs sst :
  galloc_ok al -> ts_run pr (calls p) (ts_init n) = Some (obs, sst) ->
  match r_run al pr p (t_init n) mon_init with
  | Ok (obs', st, _) => obs' = obs /\ t_run al pr (calls p) (t_init n) = Ok (obs, st)
  | Err e => e = Diverge
  end.
Proof.
  intros Hal Hs. destruct (r_run_ok al Hal pr p _ _ _ _ _ _ _ (trel_init pr n) (rinv_init n) Hs) as [E|(st&M&gs&lkg&E&_&_)]; rewrite E; [done|].
  split; [done|]. clear Hs. revert obs E. generalize (t_init n), mon_init.
  induction p as [|[t [o|u]] p IH]; intros s m obs; simpl.
  - by intros [= <- -> _].
  - destruct (mon_step al t o s m) as [m1|]; simpl; [|done]. destruct (t_step al pr t o s) as [[b s1]|]; simpl; [|done].
    destruct (r_run al pr p s1 m1) as [[[bs s2] m2]|] eqn:Er; simpl; [|done]. intros [= <- <- <-]. by rewrite (IH _ _ _ Er).
  - apply IH.
Qed.
Print Assumptions c85_race_free.

(** threads that share only by sending handles need no other synchronisation: nothing is refused *)
Theorem c85_no_borrow al pr n p obs sst :
  galloc_ok al -> ts_run pr (calls p) (ts_init n) = Some (obs, sst) -> Forall (fun x => no_borrow x.1 x.2) p ->
  exists st M, r_run al pr p (t_init n) mon_init = Ok (obs, st, M).
Proof.
  intros Hal Hs Hb. exact (r_run_known al Hal pr p _ _ _ _ _ _ _ (trel_init pr n) (rinv_init n) (known_init n) Hb Hs).
Qed.
Print Assumptions c85_no_borrow.

(** happens-before, as the monitor has it, is reflexive and transitive *)
Theorem c85_order al pr n p obs sst st M :
  galloc_ok al -> ts_run pr (calls p) (ts_init n) = Some (obs, sst) -> r_run al pr p (t_init n) mon_init = Ok (obs, st, M) ->
  forall e H, mo_hist M !! e = Some H -> e ∈ H /\ forall e', e' ∈ H -> exists H', mo_hist M !! e' = Some H' /\ H' ⊆ H.
Proof.
  intros Hal Hs E0 e H He. destruct (r_run_ok al Hal pr p _ _ _ _ _ _ _ (trel_init pr n) (rinv_init n) Hs) as [E|(st'&M'&gs&lkg&E&_&HI)];
    rewrite E in E0; [done|]. injection E0 as -> ->. exact (ri_hist _ _ HI e H He).
Qed.
Print Assumptions c85_order.

(** reading need not be one step: as long as a handle is neither moved nor dropped, nothing that can be reached
    from it is written, except counts, whatever all threads do *)
Theorem c85_stable al pr n p q obs sst obs' sst' st st' o h a :
  galloc_ok al -> ts_run pr p (ts_init n) = Some (obs, sst) -> ts_run pr q sst = Some (obs', sst') ->
  t_run al pr p (t_init n) = Ok (obs, st) -> t_run al pr q st = Ok (obs', st') ->
  t_peek st o h = Some a -> Forall (keeps o h) q ->
  t_peek st' o h = Some a /\
  forall x : addr, reaches (gmm (gc_mem st)) a x ->
    exists m m' c, gmm (gc_mem st) !! x = Some (S m, c) /\ gmm (gc_mem st') !! x = Some (S m', c).
Proof.
  intros Hal Hs Hs' E0 E' Hp Hk. destruct (t_run_ok al pr Hal p _ _ _ _ _ _ (trel_init pr n) Hs) as (st0&gs&lkg&E&HT).
  rewrite E in E0. injection E0 as ->. exact (run_stable al Hal pr o h a q _ _ _ _ _ _ _ HT Hs' E' Hp Hk).
Qed.
Print Assumptions c85_stable.

(** the schedules above: they compile, the first shares only by sending; at the end all memory is freed *)
Example c85_nonvacuous :
  (exists obs sst, ts_run Checked (calls (ex_give ++ ex_drop)) (ts_init 3) = Some (obs, sst)) /\
  Forall (fun x => no_borrow x.1 x.2) (ex_give ++ ex_drop) /\
  match r_run ex_al Checked (ex_give ++ ex_drop) (t_init 3) mon_init with
  | Ok (obs, st, M) =>
      obs !! 13 = Some (2, OTree (Token 1 [97%N])) /\ size (gmm (gc_mem st)) = 0 /\ length (mo_hist M) = 19 /\
      (* the reading of the node by thread 1 did not happen before the decrement of thread 2, event 10 *)
      mo_hist M !! 10 ≫= (fun H => Some (bool_decide (7 ∈ H))) = Some false /\
      (* both happened before the node was freed, event 15 *)
      mo_hist M !! 15 ≫= (fun H => Some (bool_decide ({[7; 10]} ⊆ H))) = Some true
  | Err _ => False
  end.
Proof.
  split; [|split].
  - eexists _, _. vm_compute. reflexivity.
  - repeat constructor.
  - vm_compute. repeat split.
Qed.
(** a borrow across threads: fine if what the borrower did is known to the owner, else refused *)
Example c85_borrow :
  (exists obs sst, ts_run Checked (calls (ex_borrow [(1, RSync 0)])) (ts_init 2) = Some (obs, sst)) /\
  match r_run ex_al Checked (ex_borrow [(1, RSync 0)]) (t_init 2) mon_init with
  | Ok (_, st, _) => size (gmm (gc_mem st)) = 0
  | Err _ => False
  end /\
  r_run ex_al Checked (ex_borrow []) (t_init 2) mon_init = Err Diverge.
Proof. split; [|split]; [eexists _, _; vm_compute; reflexivity|vm_compute; reflexivity|vm_compute; reflexivity]. Qed.
(** the monitor finds races: a thread that drops the last reference to a token, and has not synchronised with event 1,
    which accessed the token; and a thread that accesses a token it does not know to be initialised *)
Example c85_detects :
  let st := GCS (GST {[7 := (1, GCTok 1 [97%N])]} 1) [GTH [] []; GTH [] [FDrop 7]] in
  let M acc view := MON [{[0]}; {[0; 1]}] {[1 := view]} ∅ {[7 := RC 0 acc ∅]} in
  match mon_step ex_al 1 TStep st (M {[0]} {[0]}) with Ok _ => True | Err _ => False end /\
  mon_step ex_al 1 TStep st (M {[0; 1]} {[0]}) = Err UB /\ mon_step ex_al 1 TStep st (M {[0]} ∅) = Err UB.
Proof. split; [|split]; vm_compute; [exact I|reflexivity|reflexivity]. Qed.
(** thread 1 keeps its node while thread 2 takes the token out of its clone, and drops it *)
Example c85_stable_nonvacuous :
  let q := [2 ! TChild 2 0 1; 2 ! TDrop 0; 2 ! TStep; 2 ! TRead 2 1; 2 ! TDrop 1; 2 ! TStep] in
  match ts_run Checked (calls ex_give) (ts_init 3), t_run ex_al Checked (calls ex_give) (t_init 3) with
  | Some (_, sst), Ok (_, st) =>
      match ts_run Checked (calls q) sst, t_run ex_al Checked (calls q) st, t_peek st 1 0 with
      | Some _, Ok (_, st'), Some a =>
          Forall (keeps 1 0) (calls q) /\
          option_map (fun c => (c.1, cslots c.2)) (gmm (gc_mem st) !! a) = Some (2, [1; 1]) /\
          option_map (fun c => (c.1, cslots c.2)) (gmm (gc_mem st') !! a) = Some (1, [1; 1])
      | _, _, _ => False
      end
  | _, _ => False
  end.
Proof. vm_compute. split; [|split; reflexivity]. repeat (apply Forall_cons; split; [done|]). constructor. Qed.
