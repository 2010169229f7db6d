(** * Serialisation as programs on handles: src/serde_impls.rs

    As Show.v: the same methods as in Serde.v, here on any tree a client can hold, also one
    that has been edited.  The children are serialised one by one as the iterator gives
    them.  The serializer itself is only the function [fails] of Serde.v: one that edits the
    tree while it is being serialised is not modelled. *)
From Verif Require Export Serde Show.

Section ser.
  Variables (fails : list scall -> scall -> bool) (kfr : kind -> kind) (kdbg : kind -> str).
  (** no error, and all calls so far *)
  (** helper: serde_impls.rs:26-66, what is left of the result of the serializer *)
  Definition pser := list scall -> script (bool * list scall).
  (** [a?; b] *)
  (** the [?] of serde_impls.rs:26-66: stop at the first call that fails *)
  Definition p_sseq (a b : pser) : pser := fun log =>
    '(ok, log) ← a log; if ok : bool then b log else PRet (false, log).
  (** the calls on the serializer, serde_impls.rs:26-66 *)
  Definition p_scalls (l : list scall) : pser := fun log => p_lift (scalls fails l log).
  (** serde_impls.rs:31-33, 44-46: "kind" through [SerDisplay(DisplayDebug(..))] (9-24), and
      "text_range" as the pair of its [u32]s (text-size); each is read when it is needed *)
  Definition p_ser_head (s : nat) : pser :=
    p_sseq (p_scalls [SMap (Some 3)])
      (p_sseq (fun log => l ← p_look s; p_scalls [SKey k_kind; SDisplay (kdbg (kfr (l_kind l)))] log)
         (fun log => l ← p_look s; p_scalls [SKey k_range; STuple 2; SU32 (l_range l).1; SU32 (l_range l).2; STupleEnd] log)).
  (** serde_impls.rs:60-63 [try_for_each]: [f] serialises an element; it is dropped at the end
      of the closure, the iterator at the end of the statement *)
  Fixpoint p_ser_kids (f : nat -> pser) (fuel : nat) (it : Compound.kids) (log : list scall) : script (bool * list scall) :=
    match fuel with
    | 0 => PDiverge
    | S fuel' =>
        '(o, it) ← p_kids_next true it;
        match o with
        | None => _ ← p_kids_drop it; PRet (true, log)
        | Some s =>
            '(ok, log) ← f s log;
            _ ← p_drop s;
            if ok : bool then p_ser_kids f fuel' it log else _ ← p_kids_drop it; PRet (false, log)
        end
    end.
  (** serde_impls.rs:26-67: [Serialize] of [SyntaxNode], [SyntaxToken] and [Children]; the
      fuel is for the recursion into children *)
  Fixpoint p_ser_element (fuel : nat) (s : nat) : pser :=
    match fuel with
    | 0 => fun _ => PDiverge
    | S fuel' =>
        p_sseq (p_ser_head s) (fun log =>
          l ← p_look s;
          if is_node (l_tree l) then
            p_sseq (p_scalls [SKey k_children; SSeq None])
              (p_sseq (fun log => it ← p_kids_new s; p_ser_kids (p_ser_element fuel') (S (length (tchildren (l_tree l)))) it log)
                 (p_scalls [SSeqEnd; SMapEnd])) log
          else p_scalls [SKey k_text; SStr (l_text l); SMapEnd] log)
    end.
  (** serde_impls.rs:26-50 with enough fuel *)
  Definition p_serialize (s : nat) : pser := fun log => l ← p_look s; p_ser_element (tsize (l_tree l)) s log.
End ser.
