(** * Locations and typed views: src/ast.rs, and the conversions of [TokenAtOffset]

    A [Language] (api.rs:8-13) enters through its conversion [kfr] from raw kinds
    to [L::Kind]; values of [L::Kind] are encoded as [N].  An [AstNode] type is
    given by its [cast] function on nodes. *)
From Verif Require Export CursorMore.

(** ast.rs:64-67 [SyntaxNodePtr] *)
Record node_ptr := PTR { ptr_kind : kind; ptr_range : range }.
(** ast.rs:73-76 [new], on immutable nodes (the assertion holds) *)
Definition ptr_new (kfr : kind -> kind) (c : cursor) : res node_ptr :=
  r ← c_text_range c; Ok (PTR (kfr (c_kind c)) r).
(** the successor closure of ast.rs:103: [node.child_or_token_at_range(self.range)?.into_node()] *)
Definition ptr_succ (r : range) (c : cursor) : res (option cursor) :=
  o ← child_or_token_at_range c r;
  Ok (match o with Some d => if c_is_node d then Some d else None | None => None end).
(** the predicate of ast.rs:104 *)
Definition ptr_matches (kfr : kind -> kind) (ptr : node_ptr) (c : cursor) : res bool :=
  r ← c_text_range c; Ok (range_eqb r (ptr_range ptr) && (kfr (c_kind c) =? ptr_kind ptr)%N).
(** [Iterator::find] (std) over an iterator *)
(** used at ast.rs:104 *)
Fixpoint find_next {S A} (next : iter S A) (f : A -> res bool) (fuel : nat) (s : S) : res (option A) :=
  match fuel with
  | 0 => Err Diverge
  | S fuel' =>
      '(o, s') ← next s;
      match o with
      | None => Ok None
      | Some a => b ← f a; if b : bool then Ok (Some a) else find_next next f fuel' s'
      end
  end.
(** ast.rs:98-105 [try_to_node], on an immutable tree *)
Definition try_to_node (kfr : kind -> kind) (ptr : node_ptr) (root : cursor) : res (option cursor) :=
  if c_parent root then Ok None
  else find_next (successors_next (ptr_succ (ptr_range ptr))) (ptr_matches kfr ptr)
         (S (gsize (c_green root))) (Some root).
(** ast.rs:80-82 [to_node] *)
Definition to_node (kfr : kind -> kind) (ptr : node_ptr) (root : cursor) : res cursor :=
  o ← try_to_node kfr ptr root; unwrap o.
(** ast.rs:108-113 [SyntaxNodePtr::cast], 163-168 [AstPtr::cast]: an [AstPtr] is its raw pointer *)
Definition ptr_cast (can_cast : kind -> bool) (ptr : node_ptr) : option node_ptr :=
  if can_cast (ptr_kind ptr) then Some ptr else None.
(** ast.rs:140-143 [AstPtr::new] of the node underlying an AST node *)
Definition ast_ptr_new (kfr : kind -> kind) (c : cursor) : res node_ptr := ptr_new kfr c.
(** ast.rs:152-155 [AstPtr::try_to_node] *)
Definition ast_try_to_node {T} (kfr : kind -> kind) (cast : cursor -> option T) (ptr : node_ptr) (root : cursor) : res (option T) :=
  o ← try_to_node kfr ptr root; Ok (o ≫= cast).
(** ast.rs:146-148 [AstPtr::to_node] *)
Definition ast_to_node {T} (kfr : kind -> kind) (cast : cursor -> option T) (ptr : node_ptr) (root : cursor) : res T :=
  o ← ast_try_to_node kfr cast ptr root; unwrap o.

(** [Iterator::find_map] (std) over an iterator; also gives the state it stops in *)
(** used at ast.rs:218, 227 *)
Definition find_map_next {S A B} (next : iter S A) (f : A -> option B) (fuel : nat) (s : S) : res (option B * S) :=
  filter_map_next next f fuel s.
(** ast.rs:226-228 [support::child] *)
Definition ast_child {T} (cast : cursor -> option T) (parent : cursor) : res (option T) :=
  '(o, _) ← find_map_next node_children_next cast (S (length (gchildren (c_green parent)))) (children_new parent);
  Ok o.
(** ast.rs:203-220 [AstChildren::next]; the state is [inner]; the fuel bounds the
    number of remaining children, whose number is at most that of the parent's children *)
Definition ast_children_next {T} (cast : cursor -> option T) : iter children_iter T := fun it =>
  find_map_next node_children_next cast (S (length (gchildren (c_green (ci_parent it))))) it.
(** ast.rs:209-213, 230-232 [support::children] *)
Definition ast_children (parent : cursor) : children_iter := children_new parent.
(** ast.rs:234-236 [support::token] *)
Definition ast_token (kfr : kind -> kind) (k : kind) (parent : cursor) : res (option cursor) :=
  '(o, _) ← find_map_next element_children_next
              (fun it => if negb (c_is_node it) && (kfr (c_kind it) =? k)%N then Some it else None)
              (S (length (gchildren (c_green parent)))) (children_new parent);
  Ok o.

(** ** TokenAtOffset: src/utility_types.rs *)
(** 97-103 [map] *)
Definition tao_map {A B} (f : A -> B) (t : token_at_offset_t A) : token_at_offset_t B :=
  match t with TaoNone => TaoNone | TaoSingle a => TaoSingle (f a) | TaoBetween l r => TaoBetween (f l) (f r) end.
(** 106-112 [right_biased] *)
Definition tao_right {A} (t : token_at_offset_t A) : option A :=
  match t with TaoNone => None | TaoSingle a => Some a | TaoBetween _ r => Some r end.
(** 115-121 [left_biased] *)
Definition tao_left {A} (t : token_at_offset_t A) : option A :=
  match t with TaoNone => None | TaoSingle a => Some a | TaoBetween l _ => Some l end.
(** 127-139 [next] *)
Definition tao_next {A} : iter (token_at_offset_t A) A := fun t =>
  Ok match t with
     | TaoNone => (None, TaoNone)
     | TaoSingle a => (Some a, TaoNone)
     | TaoBetween l r => (Some l, TaoSingle r)
     end.
(** 141-147 [size_hint] (and [len] of [ExactSizeIterator], std) *)
Definition tao_size_hint {A} (t : token_at_offset_t A) : nat * option nat :=
  match t with TaoNone => (0, Some 0) | TaoSingle _ => (1, Some 1) | TaoBetween _ _ => (2, Some 2) end.

(** ** NodeOrToken and WalkEvent: src/utility_types.rs *)
(** 8-11; 14-19 [into_node], 21-26 [into_token], 28-33 [as_node], 35-40 [as_token] *)
Inductive node_or_token (A B : Type) := NTNode (a : A) | NTToken (b : B).
Arguments NTNode {_ _} _.
Arguments NTToken {_ _} _.
(** utility_types.rs:14-19 [into_node] *)
Definition nt_into_node {A B} (x : node_or_token A B) : option A := match x with NTNode a => Some a | NTToken _ => None end.
(** utility_types.rs:21-26 [into_token] *)
Definition nt_into_token {A B} (x : node_or_token A B) : option B := match x with NTNode _ => None | NTToken b => Some b end.
