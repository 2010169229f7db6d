(** * Serialisation: src/serde_impls.rs, on immutable trees

    A [Serializer] is seen through the calls made on it and on the states it hands out.
    [fails log c] says whether it reports an error on the call [c] after the calls [log];
    the calls made so far are the state.  The [Debug] of [L::Kind] is a parameter. *)
From Verif Require Export Fmt.

(** the methods of [serde::Serializer] the code calls (serde_impls.rs:26-66) *)
Inductive scall :=
| SMap (len : option nat) | SKey (key : str) | SMapEnd     (* serialize_map, serialize_key, end *)
| SSeq (len : option nat) | SSeqEnd                        (* serialize_seq, end *)
| STuple (len : nat) | STupleEnd                           (* serialize_tuple, end *)
| SDisplay (s : str)                                       (* collect_str *)
| SStr (s : str) | SU32 (n : N).

(** "kind", "text_range", "children", "text" *)
(** the literals at serde_impls.rs:32-34, 45-47 *)
Definition k_kind : str := [107; 105; 110; 100]%N.
(** the literals at serde_impls.rs:32-34, 45-47 *)
Definition k_range : str := [116; 101; 120; 116; 95; 114; 97; 110; 103; 101]%N.
(** the literals at serde_impls.rs:32-34, 45-47 *)
Definition k_children : str := [99; 104; 105; 108; 100; 114; 101; 110]%N.
(** the literals at serde_impls.rs:32-34, 45-47 *)
Definition k_text : str := [116; 101; 120; 116]%N.

Section ser.
  Variables (fails : list scall -> scall -> bool) (kfr : kind -> kind) (kdbg : kind -> str).

  (** no error, and all calls so far *)
  (** the [?] of serde_impls.rs:26-66: stop at the first call that fails *)
  Definition sres := res (bool * list scall).
  (** the [?] of serde_impls.rs:26-66: stop at the first call that fails *)
  Definition scall1 (c : scall) (log : list scall) : sres := Ok (negb (fails log c), log ++ [c]).
  (** [a?; b] *)
  (** the [?] of serde_impls.rs:26-66: stop at the first call that fails *)
  Definition sseq (a b : list scall -> sres) (log : list scall) : sres :=
    '(ok, log) ← a log; if ok : bool then b log else Ok (false, log).
  (** the [?] of serde_impls.rs:26-66: stop at the first call that fails *)
  Fixpoint scalls (l : list scall) (log : list scall) : sres :=
    match l with [] => Ok (true, log) | c :: l' => sseq (scall1 c) (scalls l') log end.
  (** [try_for_each] *)
  (** the [?] of serde_impls.rs:26-66: stop at the first call that fails *)
  Fixpoint sall (l : list (list scall -> sres)) (log : list scall) : sres :=
    match l with [] => Ok (true, log) | a :: l' => sseq a (sall l') log end.

  (** serde_impls.rs:30-33, 44-47: the map, "kind" through [SerDisplay(DisplayDebug(..))]
      (9-24), and "text_range", which text-size serialises as the pair of its [u32]s;
      [serialize_entry] is [serialize_key] and [serialize_value] (serde) *)
  Definition ser_head (c : cursor) (log : list scall) : sres :=
    sseq (scalls [SMap (Some 3); SKey k_kind; SDisplay (kdbg (kfr (c_kind c))); SKey k_range])
      (fun log => r ← c_text_range c; scalls [STuple 2; SU32 (rstart r); SU32 (rend r); STupleEnd] log) log.
  (** serde_impls.rs:26-67: [Serialize] of [SyntaxNode], [SyntaxToken] and [Children]; the
      fuel is for the recursion into children; they are listed before the first is serialised *)
  Fixpoint ser_element (fuel : nat) (c : cursor) (log : list scall) : sres :=
    match fuel with
    | 0 => Err Diverge
    | S fuel' =>
        sseq (ser_head c)
          (if c_is_node c then
             sseq (scalls [SKey k_children; SSeq None])
               (sseq (fun log => l ← children_with_tokens c; sall (map (ser_element fuel') l) log)
                  (scalls [SSeqEnd; SMapEnd]))
           else scalls [SKey k_text; SStr (c_text c); SMapEnd]) log
    end.
  (** serde_impls.rs:26-50 with enough fuel *)
  Definition serialize (c : cursor) (log : list scall) : sres := ser_element (gsize (c_green c)) c log.
End ser.

(** ** Specification *)
(** the function makes the calls [s], or, if one fails, the calls up to that one *)
(** specification *)
Definition makes (fails : list scall -> scall -> bool) (f : list scall -> sres) (s : list scall) : Prop :=
  forall log, exists ok x,
    f log = Ok (ok, log ++ x) /\ x `prefix_of` s /\ (ok = true -> x = s) /\
    ((forall l c, fails l c = false) -> ok = true) /\
    (ok = false -> exists y c, x = y ++ [c] /\ fails (log ++ y) c = true).

(** reading a tree back from a list of calls; [kun] reads a kind.  Gives the tree, the ranges of
    its elements in document order, and the remaining calls. *)
Section unser.
  Variable kun : str -> option kind.
  (** specification *)
  Fixpoint unser (fuel : nat) (l : list scall) : option (tree * list (N * N) * list scall) :=
    match fuel with
    | 0 => None
    | S fuel' =>
        match l with
        | SMap (Some 3) :: SKey k1 :: SDisplay ks :: SKey k2 :: STuple 2 :: SU32 a :: SU32 b :: STupleEnd :: SKey k3 :: l1 =>
            if negb (bool_decide (k1 = k_kind) && bool_decide (k2 = k_range)) then None else
            match kun ks with
            | None => None
            | Some k =>
                if bool_decide (k3 = k_text) then
                  match l1 with SStr s :: SMapEnd :: l2 => Some (Token k s, [(a, b)], l2) | _ => None end
                else if bool_decide (k3 = k_children) then
                  match l1 with
                  | SSeq None :: l2 =>
                      match unser_list fuel' l2 with
                      | Some (cs, rs, SMapEnd :: l3) => Some (Node k cs, (a, b) :: rs, l3)
                      | _ => None
                      end
                  | _ => None
                  end
                else None
            end
        | _ => None
        end
    end
  with unser_list (fuel : nat) (l : list scall) : option (list tree * list (N * N) * list scall) :=
    match fuel with
    | 0 => None
    | S fuel' =>
        match l with
        | SSeqEnd :: l1 => Some ([], [], l1)
        | _ =>
            match unser fuel' l with
            | Some (t, rs, l1) =>
                match unser_list fuel' l1 with
                | Some (ts, rs', l2) => Some (t :: ts, rs ++ rs', l2)
                | None => None
                end
            | None => None
            end
        end
    end.
End unser.
(** read exactly one tree *)
(** specification *)
Definition read_back (kun : str -> option kind) (l : list scall) : option (tree * list (N * N)) :=
  match unser kun (length l) l with Some (t, rs, []) => Some (t, rs) | _ => None end.
(** the kinds that occur in a tree *)
(** specification *)
Fixpoint tkinds (t : tree) : list kind :=
  match t with Token k _ => [k] | Node k cs => k :: concat (map tkinds cs) end.
