(** * Reference counting of green elements: src/arc.rs

    One allocation ([ArcInner]) and all [Arc]/[ThinArc] handles to it, used by any
    number of threads.  [ThinArc::clone], [drop] (arc.rs:402-414) go through
    [with_arc] / [from_thin], which do not touch the count, and then do what [Arc]
    does; [into_thin]/[from_thin] (416-441) move a handle.

    Memory model: executions of one atomic location whose modifications after the
    initial write are all read-modify-writes, in the C++20/Rust model without
    out-of-thin-air values.
    - The modifications form a list [msgs]; a read-modify-write takes the last one
      and appends its own.
    - An acquire load may take any modification that is not hidden by a later one
      that happened before the load; so it may be stale.
    - Every access is an event; [t_view] of a thread is the set of the events that
      happened before its next step.
    - [m_rel] is what an acquire load of that modification synchronises with: the
      release read-modify-writes at or before it (all modifications being
      read-modify-writes, every release sequence goes on to the end).
    - Threads synchronise with each other by other means (spawn, join, channels, locks)
      at any time: [ASync].

    The client is any safe Rust program.  What the type checker guarantees is the
    enabling condition of an action: a shared use ([&Arc]) of a handle happens after the
    handle was made and after every exclusive use of it; an exclusive use ([&mut Arc],
    drop, forget) happens after every earlier use of it.

    The number of threads is the length of [thr]. *)
From Verif Require Export Base.
From stdpp Require Export gmap.

(** arc.rs:16-20 [MAX_REFCOUNT] = [isize::MAX], 64-bit *)
Definition max_refcount : N := 2 ^ 63 - 1.
(** [usize] wraps in [fetch_add]/[fetch_sub] *)
(** std [AtomicUsize]; arc.rs:25, 111, 167 *)
Definition usize_wrap : N := 2 ^ 64.

(** what an event does to the handle it goes through and to the data *)
(** the memory model of the header; no counterpart in the code *)
Inductive akind := KShared | KExcl | KWrite.
(** the memory model of the header; no counterpart in the code *)
Record event := EV { e_h : nat; e_kind : akind; e_view : gset nat }.
(** the memory model of the header; no counterpart in the code *)
Record msg := MSG { m_val : N; m_ev : nat; m_rel : gset nat }.
(** what a thread is in the middle of: [clone] after its [fetch_add] (with the value found
    and the event), holding the [&mut] of [get_mut], [drop] after its [fetch_sub] found 1,
    [drop_slow] *)
(** between the atomic accesses of arc.rs:99-127, 142-159, 164-196 *)
Inductive pend := Idle | Cloning (old : N) (ev : nat) | Unique (h : nat) | Dropping (h : nat) | Freeing.
(** whether a handle exists, arc.rs:39-42 *)
Inductive hstate := Live | Borrowed | Dropped | Forgotten.
(** the memory model of the header; no counterpart in the code *)
Record thread := TH { t_view : gset nat; t_pend : pend }.
(** the memory model of the header: the state of an execution *)
Record ast := AS {
  evs : list event;
  msgs : list msg;
  hs : list (hstate * nat);      (* the handles ever made, with the event that made them *)
  thr : list thread;
  freed : nat;                   (* how often the memory has been freed *)
  bad : bool;                    (* an access after free, or a data race *)
  aborted : bool }.

(** the atomic steps of arc.rs:99-196, and synchronisation by other means *)
Inductive act :=
| ASync (t1 t2 : nat)            (* what happened before [t1]'s next step now also did for [t2] *)
| ACloneAdd (t h : nat) | ACloneCheck (t : nat)
| ARead (t h : nat)              (* read the data through [Deref] *)
| AGetMut (t h i : nat)          (* [is_unique] of [get_mut], taking modification [i] *)
| AWrite (t : nat) | AEndMut (t : nat)
| ADropSub (t h : nat) | ADropLoad (t i : nat) | AFree (t : nat)
| AForget (t h : nat).

(** all events satisfying [P] happened before *)
(** the memory model of the header *)
Definition sees (P : event -> bool) (V : gset nat) (l : list event) : bool :=
  forallb (fun ie => negb (P ie.2) || bool_decide (ie.1 ∈ V)) (imap pair l).
(** the memory model of the header *)
Definition is_excl (k : akind) : bool := match k with KShared => false | _ => true end.
(** the memory model of the header *)
Definition is_write (k : akind) : bool := match k with KWrite => true | _ => false end.
(** what the type checker guarantees of [&Arc], [&mut Arc] *)
Definition shared_ok (st : ast) (V : gset nat) (h : nat) : bool :=
  match hs st !! h with
  | Some (Live, c) => bool_decide (c ∈ V) && sees (fun e => (e_h e =? h) && is_excl (e_kind e)) V (evs st)
  | _ => false
  end.
(** what the type checker guarantees of [&Arc], [&mut Arc] *)
Definition excl_ok (st : ast) (V : gset nat) (h : nat) : bool :=
  match hs st !! h with
  | Some (Live, c) => bool_decide (c ∈ V) && sees (fun e => e_h e =? h) V (evs st)
  | _ => false
  end.
(** a load may take modification [i] *)
(** the memory model of the header *)
Definition readable (st : ast) (V : gset nat) (i : nat) : bool :=
  forallb (fun m => negb (bool_decide (m_ev m ∈ V))) (drop (S i) (msgs st)).

(** helper: updates of the state *)
Definition set_thr (t : nat) (x : thread) (st : ast) : ast :=
  AS (evs st) (msgs st) (hs st) (<[t:=x]> (thr st)) (freed st) (bad st) (aborted st).
(** helper: updates of the state *)
Definition set_hs (h : nat) (x : hstate * nat) (st : ast) : ast :=
  AS (evs st) (msgs st) (<[h:=x]> (hs st)) (thr st) (freed st) (bad st) (aborted st).
(** helper: updates of the state *)
Definition set_hstate (h : nat) (x : hstate) (st : ast) : ast :=
  match hs st !! h with Some (_, c) => set_hs h (x, c) st | None => st end.
(** helper: updates of the state *)
Definition push_hs (x : hstate * nat) (st : ast) : ast :=
  AS (evs st) (msgs st) (hs st ++ [x]) (thr st) (freed st) (bad st) (aborted st).
(** helper: updates of the state *)
Definition push_msg (m : msg) (st : ast) : ast :=
  AS (evs st) (msgs st ++ [m]) (hs st) (thr st) (freed st) (bad st) (aborted st).
(** the event happens; [ok]: it does not race with an earlier one *)
(** helper: updates of the state *)
Definition push_ev (e : event) (ok : bool) (st : ast) : ast :=
  AS (evs st ++ [e]) (msgs st) (hs st) (thr st) (freed st)
     (bad st || negb ok || negb (freed st =? 0)) (aborted st).

(** arc.rs:99-127 [clone]: [fetch_add(1, Relaxed)] *)
Definition do_clone_add (t h : nat) (V : gset nat) (st : ast) : option ast :=
  if negb (shared_ok st V h) then None else
  m ← last (msgs st);
  let e := length (evs st) in
  let V' := V ∪ {[e]} in
  Some (set_thr t (TH V' (Cloning (m_val m) e))
         (push_msg (MSG ((m_val m + 1) mod usize_wrap) e (m_rel m))
           (push_ev (EV h KShared V') true st))).
(** arc.rs:122-126: [if old_size > MAX_REFCOUNT { abort() }], then the new handle *)
Definition do_clone_check (t : nat) (V : gset nat) (old : N) (e : nat) (st : ast) : option ast :=
  if (max_refcount <? old)%N
  then Some (AS (evs st) (msgs st) (hs st) (thr st) (freed st) (bad st) true)
  else Some (set_thr t (TH V Idle) (push_hs (Live, e) st)).
(** arc.rs:134-136 [deref] and a read of the data *)
Definition do_read (t h : nat) (V : gset nat) (st : ast) : option ast :=
  if negb (shared_ok st V h) then None else
  let V' := V ∪ {[length (evs st)]} in
  Some (set_thr t (TH V' Idle) (push_ev (EV h KShared V') (sees (fun e => is_write (e_kind e)) V (evs st)) st)).
(** arc.rs:142-159 [get_mut], [is_unique]: [count.load(Acquire) == 1] *)
Definition do_get_mut (t h i : nat) (V : gset nat) (st : ast) : option ast :=
  if negb (excl_ok st V h && readable st V i) then None else
  m ← msgs st !! i;
  let V' := V ∪ {[length (evs st)]} ∪ m_rel m in
  let st := push_ev (EV h KShared V') true st in
  Some (if (m_val m =? 1)%N then set_thr t (TH V' (Unique h)) (set_hstate h Borrowed st)
        else set_thr t (TH V' Idle) st).
(** a write through the [&mut T] of [get_mut] *)
(** through the result of arc.rs:142-151 *)
Definition do_write (t h : nat) (V : gset nat) (st : ast) : option ast :=
  let V' := V ∪ {[length (evs st)]} in
  Some (set_thr t (TH V' (Unique h)) (push_ev (EV h KWrite V') (sees (fun _ => true) V (evs st)) st)).
(** arc.rs:164-169 [drop]: [fetch_sub(1, Release)] *)
Definition do_drop_sub (t h : nat) (V : gset nat) (st : ast) : option ast :=
  if negb (excl_ok st V h) then None else
  m ← last (msgs st);
  let e := length (evs st) in
  let V' := V ∪ {[e]} in
  Some (set_thr t (TH V' (if (m_val m =? 1)%N then Dropping h else Idle))
         (set_hstate h Dropped
           (push_msg (MSG ((m_val m + (usize_wrap - 1)) mod usize_wrap) e (m_rel m ∪ V'))
             (push_ev (EV h KExcl V') true st)))).
(** arc.rs:191 [count.load(Acquire)] *)
Definition do_drop_load (t h i : nat) (V : gset nat) (st : ast) : option ast :=
  if negb (readable st V i) then None else
  m ← msgs st !! i;
  let V' := V ∪ {[length (evs st)]} ∪ m_rel m in
  Some (set_thr t (TH V' Freeing) (push_ev (EV h KShared V') true st)).
(** arc.rs:193-195, 79-83 [drop_slow]: drops the data and frees the memory *)
Definition do_free (t : nat) (V : gset nat) (st : ast) : option ast :=
  Some (AS (evs st) (msgs st) (hs st) (<[t:=TH V Idle]> (thr st)) (S (freed st))
           (bad st || negb (sees (fun _ => true) V (evs st)) || negb (freed st =? 0)) (aborted st)).

(** one step; [None]: not possible in this state *)
(** one of the steps above, arc.rs:99-196 *)
Definition astep (a : act) (st : ast) : option ast :=
  if aborted st then None else
  match a with
  | ASync t1 t2 =>
      x ← thr st !! t1; y ← thr st !! t2;
      Some (set_thr t2 (TH (t_view y ∪ t_view x) (t_pend y)) st)
  | ACloneAdd t h => x ← thr st !! t; match t_pend x with Idle => do_clone_add t h (t_view x) st | _ => None end
  | ACloneCheck t => x ← thr st !! t; match t_pend x with Cloning old e => do_clone_check t (t_view x) old e st | _ => None end
  | ARead t h => x ← thr st !! t; match t_pend x with Idle => do_read t h (t_view x) st | _ => None end
  | AGetMut t h i => x ← thr st !! t; match t_pend x with Idle => do_get_mut t h i (t_view x) st | _ => None end
  | AWrite t => x ← thr st !! t; match t_pend x with Unique h => do_write t h (t_view x) st | _ => None end
  | AEndMut t => x ← thr st !! t; match t_pend x with Unique h => Some (set_thr t (TH (t_view x) Idle) (set_hstate h Live st)) | _ => None end
  | ADropSub t h => x ← thr st !! t; match t_pend x with Idle => do_drop_sub t h (t_view x) st | _ => None end
  | ADropLoad t i => x ← thr st !! t; match t_pend x with Dropping h => do_drop_load t h i (t_view x) st | _ => None end
  | AFree t => x ← thr st !! t; match t_pend x with Freeing => do_free t (t_view x) st | _ => None end
  | AForget t h =>
      x ← thr st !! t;
      match t_pend x with Idle => if excl_ok st (t_view x) h then Some (set_hstate h Forgotten st) else None | _ => None end
  end.
(** executions: sequences of steps *)
Fixpoint arun (acts : list act) (st : ast) : option ast :=
  match acts with [] => Some st | a :: acts' => st ← astep a st; arun acts' st end.

(** arc.rs:362-390: the allocation has just been made by thread 0, with count 1 and one handle *)
Definition a_init (threads : nat) : ast :=
  AS [EV 0 KExcl {[0]}] [MSG 1 0 ∅] [(Live, 0)]
     (TH {[0]} Idle :: replicate (threads - 1) (TH ∅ Idle)) 0 false false.

(** the states any number of threads can reach *)
(** executions: sequences of steps *)
Definition a_reaches (threads : nat) (st : ast) : Prop := exists acts, arun acts (a_init threads) = Some st.
