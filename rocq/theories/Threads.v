(** * Green trees shared by threads

    GreenStore.v runs one thread.  Here any number of threads work on one memory of green trees,
    and a schedule says which thread does what next.  What is one step:
    - [clone]: one [fetch_add] (arc.rs:111);
    - [drop]: one [fetch_sub] (arc.rs:167) and, if it found 1, the load (arc.rs:189) and taking
      the children; then one step for every drop nested in it and one for freeing the memory
      (arc.rs:79-83).  Other threads may run between any two of these;
    - reading and construction: what is read is behind a handle and is not written as long as
      the handle exists, and what is written is not known to other threads.

    The order of steps is sequentially consistent; that the orderings of the atomics suffice for
    that, for one allocation, is Arc.v (C48).  Edits ([splice_children], [insert_child],
    [remove_child], [replace_child], green/node.rs:159-184) are made of the steps here: clone
    children, drop some, build a node. *)
From Verif Require Export StoreClient.

(** what a thread has still to do of a drop: arc.rs:164-196 for one pointer; arc.rs:81 the [Box]
    freeing the memory once the children are dropped *)
Inductive frame := FDrop (a : addr) | FFree (a : addr).
(** a thread: its handle variables (green/node.rs:43-47, green/token.rs:30-34), and its drops in
    progress, innermost first *)
Record gthread := GTH { gt_env : list (option addr); gt_stk : list frame }.
(** the memory (arc.rs:24-27) and the threads *)
Record gcs := GCS { gc_mem : gst; gc_thr : list gthread }.

(** what a thread may do; [o] is the thread whose variable is read: [GreenNode] and [GreenToken]
    are [Sync] (arc.rs:286-287), so other threads may have [&] references to it, and [Send] *)
Inductive tact :=
| TToken (k : kind) (s : str)          (** [GreenToken::new], green/token.rs:112 *)
| TNode (k : kind) (hs : list nat)     (** [GreenNode::new], green/node.rs:203 *)
| TClone (o h : nat)                   (** [clone], green/node.rs:49, token.rs:36 *)
| TChild (o h i : nat)                 (** [children().nth(i).to_owned()], green/node.rs:138 *)
| TRead (o h : nat)                    (** walk below the handle *)
| TDrop (h : nat)                      (** [drop] begins *)
| TSend (h u : nat)                    (** the handle moves to thread [u] *)
| TStep.                               (** the drop in progress goes on *)

(** helper: the pointer of an item *)
Definition src_addr (s : src) : addr := match s with Own a | Ref a => a end.
(** green/node.rs:203-232 [GreenNode::new], as [gs_new] (GreenStore.v), but the owned handles that
    were not consumed are returned, to be dropped step by step while unwinding *)
Definition t_new (al : nat -> gset addr -> addr) (pr : profile) (k : kind) (xs : list addr) : gsm (addr + list addr) :=
  '(w, r) ← gs_fill pr 0%N (map Own xs);
  match r with
  | inl total => a ← gs_alloc al (GCNode k total w); mret (inl a)
  | inr rest => _ ← gs_alloc al (GCNode k 0%N w); mret (inr (map src_addr rest))
  end.
(** arc.rs:164-196 [drop] up to the drop of the children: one reference less; what is left to do.
    The pointers to the children are taken out of the cell, in the code they stay there and
    are read one by one *)
Definition t_drop (a : addr) : gsm (list frame) := fun h =>
  match gmm h !! a with
  | Some (S (S n), c) => (Ok [], GST (<[a := (S n, c)]> (gmm h)) (gck h))
  | Some (1, c) =>
      (Ok (map FDrop (cslots c) ++ [FFree a]), GST (<[a := (0, GCTok (ckind c) [])]> (gmm h)) (gck h))
  | _ => (Err UB, h)
  end.
(** arc.rs:81: the memory is freed; freeing twice, or while somebody counts as owner, is undefined *)
Definition t_free (a : addr) : gsm unit := fun h =>
  match gmm h !! a with
  | Some (0, _) => (Ok (), GST (delete a (gmm h)) (gck h))
  | _ => (Err UB, h)
  end.

(** helper: the handle in variable [h] of thread [o] *)
Definition t_peek (st : gcs) (o h : nat) : option addr :=
  match gc_thr st !! o with Some th => g_peek h (gt_env th) | None => None end.

(** one step of thread [t] (arc.rs:99-127, 164-196, green/node.rs:138-140, 203-232,
    green/token.rs:112-116; the functions cited at [tact]) *)
Definition t_step (al : nat -> gset addr -> addr) (pr : profile) (t : nat) (o : tact) (st : gcs) : res (gobs * gcs) :=
  match gc_thr st !! t with
  | None => g_reject
  | Some th =>
      let env := gt_env th in
      let put env' stk' mem' := GCS mem' (<[t := GTH env' stk']> (gc_thr st)) in
      match o with
      | TToken k s =>
          match gs_token al k s (gc_mem st) with
          | (Ok a, m) => Ok (OHandle, put (env ++ [Some a]) (gt_stk th) m)
          | (Err e, _) => Err e
          end
      | TNode k hs =>
          match g_move hs env with
          | Some (xs, env') =>
              match t_new al pr k xs (gc_mem st) with
              | (Ok (inl a), m) => Ok (OHandle, put (env' ++ [Some a]) (gt_stk th) m)
              | (Ok (inr rest), m) => Ok (OPanic, put (env' ++ [None]) (map FDrop rest ++ gt_stk th) m)
              | (Err e, _) => Err e
              end
          | None => g_reject
          end
      | TClone o h =>
          match t_peek st o h with
          | Some a =>
              match gs_clone a (gc_mem st) with
              | (Ok _, m) => Ok (OHandle, put (env ++ [Some a]) (gt_stk th) m)
              | (Err e, _) => Err e
              end
          | None => g_reject
          end
      | TChild o h i =>
          match t_peek st o h with
          | Some a =>
              match gs_child a i (gc_mem st) with
              | (Ok (Some x), m) => Ok (OHandle, put (env ++ [Some x]) (gt_stk th) m)
              | (Ok None, m) => Ok (ONone, put (env ++ [None]) (gt_stk th) m)
              | (Err e, _) => Err e
              end
          | None => g_reject
          end
      | TRead o h =>
          match t_peek st o h with
          | Some a =>
              match gs_read a (gc_mem st) with (Ok t, m) => Ok (OTree t, st) | (Err e, _) => Err e end
          | None => g_reject
          end
      | TDrop h =>
          match g_peek h env with
          | Some a => Ok (OUnit, put (<[h := None]> env) (FDrop a :: gt_stk th) (gc_mem st))
          | None => g_reject
          end
      | TSend h u =>
          match g_peek h env with
          | Some a =>
              let thr' := <[t := GTH (<[h := None]> env) (gt_stk th)]> (gc_thr st) in
              match thr' !! u with
              | Some th' => Ok (OUnit, GCS (gc_mem st) (<[u := GTH (gt_env th' ++ [Some a]) (gt_stk th')]> thr'))
              | None => g_reject
              end
          | None => g_reject
          end
      | TStep =>
          match gt_stk th with
          | [] => Ok (OUnit, st)
          | FDrop a :: stk =>
              match t_drop a (gc_mem st) with
              | (Ok fs, m) => Ok (OUnit, put env (fs ++ stk) m)
              | (Err e, _) => Err e
              end
          | FFree a :: stk =>
              match t_free a (gc_mem st) with
              | (Ok _, m) => Ok (OUnit, put env stk m)
              | (Err e, _) => Err e
              end
          end
      end
  end.
(** helper: the steps of a schedule, with what each shows to its thread *)
Fixpoint t_run (al : nat -> gset addr -> addr) (pr : profile) (p : list (nat * tact)) (st : gcs)
    : res (list (nat * gobs) * gcs) :=
  match p with
  | [] => Ok ([], st)
  | (t, o) :: p' =>
      '(b, st') ← t_step al pr t o st;
      '(bs, st'') ← t_run al pr p' st';
      Ok ((t, b) :: bs, st'')
  end.
(** helper: [n] threads, nothing allocated *)
Definition t_init (n : nat) : gcs := GCS (GST ∅ 0) (replicate n (GTH [] [])).

(** ** Specification: threads holding trees *)
(** the variables of every thread, and the nodes that leaked *)
Definition tst := (list (list (option tree)) * list tree)%type.
(** the tree in variable [h] of thread [o] *)
Definition ts_peek (st : tst) (o h : nat) : option tree :=
  match st.1 !! o with Some env => g_peek h env | None => None end.
(** one step; [None] when the program would not compile (see [s_gstep]) or names a thread that does not exist *)
Definition ts_step (pr : profile) (t : nat) (o : tact) (st : tst) : option (gobs * tst) :=
  match st.1 !! t with
  | None => None
  | Some env =>
      match o with
      | TToken k s => Some (OHandle, (<[t := env ++ [Some (Token k s)]]> st.1, st.2))
      | TNode k hs =>
          match g_move hs env with
          | Some (ts, env') =>
              if gbuildable pr ts then Some (OHandle, (<[t := env' ++ [Some (Node k ts)]]> st.1, st.2))
              else Some (OPanic, (<[t := env' ++ [None]]> st.1, Node k (gwritten pr [] ts) :: st.2))
          | None => None
          end
      | TClone o h =>
          match ts_peek st o h with Some x => Some (OHandle, (<[t := env ++ [Some x]]> st.1, st.2)) | None => None end
      | TChild o h i =>
          match ts_peek st o h ≫= s_children with
          | Some (_, cs) =>
              Some (match cs !! i with Some _ => OHandle | None => ONone end, (<[t := env ++ [cs !! i]]> st.1, st.2))
          | None => None
          end
      | TRead o h => match ts_peek st o h with Some x => Some (OTree x, st) | None => None end
      | TDrop h => match g_peek h env with Some _ => Some (OUnit, (<[t := <[h := None]> env]> st.1, st.2)) | None => None end
      | TSend h u =>
          match g_peek h env with
          | Some x =>
              let envs := <[t := <[h := None]> env]> st.1 in
              match envs !! u with
              | Some env' => Some (OUnit, (<[u := env' ++ [Some x]]> envs, st.2))
              | None => None
              end
          | None => None
          end
      | TStep => Some (OUnit, st)
      end
  end.
(** specification: the steps of a schedule *)
Fixpoint ts_run (pr : profile) (p : list (nat * tact)) (st : tst) : option (list (nat * gobs) * tst) :=
  match p with
  | [] => Some ([], st)
  | (t, o) :: p' =>
      match ts_step pr t o st with
      | Some (b, st') => match ts_run pr p' st' with Some (bs, st'') => Some ((t, b) :: bs, st'') | None => None end
      | None => None
      end
  end.
(** specification: [n] threads without variables *)
Definition ts_init (n : nat) : tst := (replicate n [], []).

(** all handles in variables of threads *)
(** specification *)
Definition all_handles (st : gcs) : list addr := concat (map (fun th => live_handles (gt_env th)) (gc_thr st)).
(** the pointers whose drop has been called and has not yet touched the count *)
(** specification *)
Definition to_drop (st : gcs) : list addr :=
  concat (map (fun th => filter_map (fun f => match f with FDrop a => Some a | FFree _ => None end) (gt_stk th)) (gc_thr st)).
(** the allocations of which some thread has dropped the last reference and not yet freed *)
(** specification *)
Definition to_free (st : gcs) : list addr :=
  concat (map (fun th => filter_map (fun f => match f with FFree a => Some a | FDrop _ => None end) (gt_stk th)) (gc_thr st)).
(** no thread is in the middle of a drop *)
(** specification *)
Definition all_idle (st : gcs) : Prop := Forall (fun th => gt_stk th = []) (gc_thr st).
(** the sum of all counts and the number of allocations *)
(** specification *)
Definition work (m : gmem) : nat := map_fold (fun _ c n => S (c.1 + n)) 0 m.
(** a schedule of nothing but drops going on *)
(** specification *)
Definition drops (ts : list nat) : list (nat * tact) := map (fun t => (t, TStep)) ts.
(** the step uses only variables of thread [t] *)
(** specification *)
Definition own_step (t : nat) (o : tact) : Prop :=
  match o with
  | TClone u _ | TChild u _ _ | TRead u _ => u = t
  | TSend _ _ => False
  | _ => True
  end.
(** what concerns one thread *)
(** specification *)
Definition only {A} (t : nat) (l : list (nat * A)) : list (nat * A) := filter (fun x => x.1 = t) l.
