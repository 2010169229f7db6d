(** * Data races on shared green trees

    Threads.v with happens-before.  A schedule of Threads.v gives the order of the read-modify-writes
    of every count; beside the memory a monitor keeps, in the memory model of Arc.v:
    - events: every step of a thread is one, and [mo_hist] has the events that happened before it;
    - for every thread the events that happened before its next step ([mo_view]);
    - for every allocation the event that initialised it, the events that accessed it (its data or its
      count), and what an acquire load of its count synchronises with: the release
      read-modify-writes so far (arc.rs:167); all modifications are read-modify-writes, so
      every release sequence goes on to the end, through relaxed ones (arc.rs:111) too;
    - for every handle variable the event that filled it and the events that used it.

    A step is undefined behaviour, [Err UB], if it accesses an allocation without the initialisation
    having happened before, or destroys or frees one without every access to it having happened before.

    A step is refused, [g_reject], if the type checker cannot have let it pass: a handle of another thread
    is used ([&]) without having been made before, or a handle is moved or dropped without all
    uses of it having happened before.  Threads synchronise by sending a handle, and by other means (spawn,
    join, locks) at any time: [RSync]. *)
From Verif Require Export ThreadsFacts.

(** an allocation (arc.rs:24-27): initialised by, accessed by, what its count releases *)
Record rcell := RC { rc_ini : nat; rc_acc : gset nat; rc_rel : gset nat }.
(** the monitor of the header; no counterpart in the code.  [mo_vars] is by thread and number of the variable *)
Record mon := MON {
  mo_hist : list (gset nat);
  mo_view : gmap nat (gset nat);
  mo_vars : gmap (nat * nat) (nat * gset nat);
  mo_cells : gmap addr rcell
}.
(** the monitor: what happened before the next step of a thread *)
Definition mview (M : mon) (t : nat) : gset nat := default ∅ (mo_view M !! t).

(** the monitor: event [e] of a thread with view [V] accesses an allocation *)
Definition touch (e : nat) (V : gset nat) (x : addr) (cs : gmap addr rcell) : res (gmap addr rcell) :=
  match cs !! x with
  | Some c => if decide (rc_ini c ∈ V) then Ok (<[x := RC (rc_ini c) ({[e]} ∪ rc_acc c) (rc_rel c)]> cs) else Err UB
  | None => Err UB
  end.
(** the monitor: several allocations *)
Fixpoint touches (e : nat) (V : gset nat) (xs : list addr) (cs : gmap addr rcell) : res (gmap addr rcell) :=
  match xs with
  | [] => Ok cs
  | x :: xs' => cs' ← touch e V x cs; touches e V xs' cs'
  end.
(** what [gs_read] accesses (green/node.rs:120-140): the allocations below [a], parents first *)
Fixpoint below (depth : nat) (m : gmem) (a : addr) : list addr :=
  match depth with
  | 0 => []
  | S depth' =>
      a :: match m !! a with Some (_, c) => concat (map (below depth' m) (cslots c)) | None => [] end
  end.
(** what the type checker allows: a shared use by thread [t] of variable [h] of thread [o] *)
Definition may_use (M : mon) (t o h : nat) : bool :=
  if decide (o = t) then true
  else match mo_vars M !! (o, h) with Some (b, _) => bool_decide (b ∈ mview M t) | None => false end.
(** what the type checker allows: a move out of variable [h] of thread [t] *)
Definition may_take (M : mon) (t h : nat) : bool :=
  match mo_vars M !! (t, h) with Some (_, U) => bool_decide (U ⊆ mview M t) | None => false end.
(** the monitor: event [e] uses a variable *)
Definition use (e o h : nat) (vs : gmap (nat * nat) (nat * gset nat)) : gmap (nat * nat) (nat * gset nat) :=
  alter (fun x => (x.1, {[e]} ∪ x.2)) (o, h) vs.

(** the monitor on a step of thread [t] in state [st]: arc.rs:111 (relaxed: touches only), 167 (release), 189
    (acquire), 79-83; reads of green/node.rs:120-140, 203-232.  A step of a drop that found 1 has the view after
    the acquire load from then on *)
Definition mon_step (al : nat -> gset addr -> addr) (t : nat) (o : tact) (st : gcs) (M : mon) : res mon :=
  match gc_thr st !! t with
  | None => g_reject
  | Some th =>
      let m := gmm (gc_mem st) in
      let new := al (gck (gc_mem st)) (dom m) in
      let nxt := length (gt_env th) in
      let e := length (mo_hist M) in
      let V := mview M t in
      let V1 := {[e]} ∪ V in
      let fin vs cs := MON (mo_hist M ++ [V1]) (<[t := V1]> (mo_view M)) vs cs in
      match o with
      | TToken _ _ =>
          Ok (fin (<[(t, nxt) := (e, {[e]})]> (mo_vars M)) (<[new := RC e {[e]} ∅]> (mo_cells M)))
      | TNode _ hs =>
          match g_move hs (gt_env th) with
          | Some (xs, _) =>
              if forallb (may_take M t) hs then
                cs ← touches e V xs (mo_cells M);
                Ok (fin (<[(t, nxt) := (e, {[e]})]> (mo_vars M)) (<[new := RC e {[e]} ∅]> cs))
              else g_reject
          | None => g_reject
          end
      | TClone o h =>
          match t_peek st o h with
          | Some a =>
              if may_use M t o h then
                cs ← touch e V a (mo_cells M);
                Ok (fin (<[(t, nxt) := (e, {[e]})]> (use e o h (mo_vars M))) cs)
              else g_reject
          | None => g_reject
          end
      | TChild o h i =>
          match t_peek st o h with
          | Some a =>
              if may_use M t o h then
                let x := match m !! a with Some (_, c) => cslots c !! i | None => None end in
                cs ← touches e V (a :: match x with Some x => [x] | None => [] end) (mo_cells M);
                Ok (fin (<[(t, nxt) := (e, {[e]})]> (use e o h (mo_vars M))) cs)
              else g_reject
          | None => g_reject
          end
      | TRead o h =>
          match t_peek st o h with
          | Some a =>
              if may_use M t o h then
                cs ← touches e V (below (S (size m)) m a) (mo_cells M);
                Ok (fin (use e o h (mo_vars M)) cs)
              else g_reject
          | None => g_reject
          end
      | TDrop h => if may_take M t h then Ok (fin (mo_vars M) (mo_cells M)) else g_reject
      | TSend h u =>
          match gc_thr st !! u with
          | Some thu =>
              if may_take M t h then
                Ok (MON (mo_hist M ++ [V1]) (<[u := V1 ∪ mview M u]> (<[t := V1]> (mo_view M)))
                        (<[(u, length (gt_env thu)) := (e, {[e]})]> (mo_vars M)) (mo_cells M))
              else g_reject
          | None => g_reject
          end
      | TStep =>
          match gt_stk th with
          | [] => Ok M
          | FDrop a :: _ =>
              cs ← touch e V a (mo_cells M);
              match cs !! a, m !! a with
              | Some c, Some (n, _) =>
                  let rel := rc_rel c ∪ V1 in
                  let cs' := <[a := RC (rc_ini c) (rc_acc c) rel]> cs in
                  if n =? 1 then
                    let V2 := V1 ∪ rel in
                    if decide (rc_acc c ⊆ V2) then Ok (MON (mo_hist M ++ [V1]) (<[t := V2]> (mo_view M)) (mo_vars M) cs')
                    else Err UB
                  else Ok (fin (mo_vars M) cs')
              | _, _ => Err UB
              end
          | FFree a :: _ =>
              match mo_cells M !! a with
              | Some c => if decide (rc_acc c ⊆ V) then Ok (fin (mo_vars M) (delete a (mo_cells M))) else Err UB
              | None => Err UB
              end
          end
      end
  end.

(** what happens next: a step of a thread (Threads.v), or what one thread did is made known to another *)
Inductive ract := RDo (o : tact) | RSync (u : nat).
(** helper: the steps of Threads.v in a schedule *)
Fixpoint calls (p : list (nat * ract)) : list (nat * tact) :=
  match p with
  | [] => []
  | (t, RDo o) :: p' => (t, o) :: calls p'
  | (_, RSync _) :: p' => calls p'
  end.
(** a schedule with the monitor (arc.rs:99-127, 164-196 as in [t_step]) *)
Fixpoint r_run (al : nat -> gset addr -> addr) (pr : profile) (p : list (nat * ract)) (st : gcs) (M : mon)
    : res (list (nat * gobs) * gcs * mon) :=
  match p with
  | [] => Ok ([], st, M)
  | (t, RSync u) :: p' =>
      r_run al pr p' st (MON (mo_hist M) (<[u := mview M t ∪ mview M u]> (mo_view M)) (mo_vars M) (mo_cells M))
  | (t, RDo o) :: p' =>
      M' ← mon_step al t o st M;
      '(b, st') ← t_step al pr t o st;
      '(bs, st'', M'') ← r_run al pr p' st' M';
      Ok ((t, b) :: bs, st'', M'')
  end.
(** helper: nothing has happened *)
Definition mon_init : mon := MON [] ∅ ∅ ∅.

(** the step uses only variables of its own thread; handles may be sent *)
(** specification *)
Definition no_borrow (t : nat) (o : ract) : Prop :=
  match o with RDo (TClone u _) | RDo (TChild u _ _) | RDo (TRead u _) => u = t | _ => True end.
(** the step does not move or drop variable [h] of thread [o] *)
(** specification *)
Definition keeps (o h : nat) (x : nat * tact) : Prop :=
  x.1 = o -> match x.2 with TNode _ hs => h ∉ hs | TDrop h' | TSend h' _ => h' <> h | _ => True end.
