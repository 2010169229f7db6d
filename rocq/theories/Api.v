(** * The typed layer: src/api.rs

    [SyntaxNode<L>], [SyntaxToken<L>] and [SyntaxElement<L>] wrap the handles of
    cursor.rs.  The language is an arbitrary type of kinds [K] with a function
    [kfr : kind -> K] for [L::kind_from_raw] (api.rs:8-13), taken to be total: a
    [kind_from_raw] that panics on a raw kind is not modelled.  A handle of
    cursor.rs is a [cursor] whether it is a node or a token (Cursor.v); here the
    two have different types, and the [NodeOrToken] of the code is a real sum.

    Not here: [replace_with] and [green], which only pass on; [new_root_mut],
    [clone_subtree], [clone_for_update], [detach] and [splice_children], which
    only unwrap and call the functions of the node heap (Heap.v); formatting,
    which is in Fmt.v and Show.v. *)
From Verif Require Export Ast Fmt CursorMore Cursor.

(** api.rs:15-19 [SyntaxNode<L>] *)
Record tnode := TN { tn_raw : cursor }.
(** api.rs:21-25 [SyntaxToken<L>] *)
Record ttok := TT { tt_raw : cursor }.
(** api.rs:27 [SyntaxElement<L>] *)
Definition telem := node_or_token tnode ttok.

(** api.rs:511-515 [From<cursor::SyntaxNode>] *)
Definition node_from (raw : cursor) : tnode := TN raw.
(** api.rs:517-521 *)
Definition node_into (n : tnode) : cursor := tn_raw n.
(** api.rs:523-527 [From<cursor::SyntaxToken>] *)
Definition tok_from (raw : cursor) : ttok := TT raw.
(** api.rs:529-533 *)
Definition tok_into (t : ttok) : cursor := tt_raw t.
(** api.rs:535-542 [From<cursor::SyntaxElement>]; the variant of the raw element
    is that of its green element *)
Definition elem_from (raw : cursor) : telem :=
  if c_is_node raw then NTNode (node_from raw) else NTToken (tok_from raw).
(** api.rs:544-551 *)
Definition elem_into (e : telem) : cursor :=
  match e with NTNode it => node_into it | NTToken it => tok_into it end.
(** utility_types.rs:76-82 [WalkEvent::map] *)
Definition we_map {A B} (f : A -> B) (e : wevent A) : wevent B :=
  match e with Enter it => Enter (f it) | Leave it => Leave (f it) end.
(** [.map(f)] on an optional result (std) *)
Definition opt_map {A B} (f : A -> B) (r : res (option A)) : res (option B) :=
  o ← r; Ok (option_map f o).
(** [.map(f)] on an iterator (std): the state is that of the inner iterator *)
Definition map_next {S A B} (f : A -> B) (next : iter S A) : iter S B := fun s =>
  '(o, s') ← next s; Ok (option_map f o, s').

Section language.
  Context {K : Type} (kfr : kind -> K).

  (** the closure [|raw_kind| matcher(L::kind_from_raw(raw_kind))], api.rs:154 *)
  Definition raw_matcher (matcher : K -> bool) : kind -> bool := fun raw_kind => matcher (kfr raw_kind).

  (** ** Nodes *)
  (** api.rs:98-100 *)
  Definition tn_new_root (g : green) : tnode := node_from (new_root g).
  (** api.rs:112-114 *)
  Definition tn_kind (n : tnode) : K := kfr (c_kind (tn_raw n)).
  (** api.rs:116-118 *)
  Definition tn_text_range (n : tnode) : res range := c_text_range (tn_raw n).
  (** api.rs:120-122 *)
  Definition tn_index (n : tnode) : nat := c_index (tn_raw n).
  (** api.rs:132-134 *)
  Definition tn_parent (n : tnode) : option tnode := node_from <$> c_parent (tn_raw n).
  (** api.rs:136-138; cursor.rs:671-673 *)
  Definition tn_ancestors : iter (option cursor) tnode := map_next node_from ancestors_next.
  (** api.rs:136-138: what the iterator starts from *)
  Definition tn_ancestors_new (n : tnode) : option cursor := ancestors_new (tn_raw n).
  (** api.rs:140-142 *)
  Definition tn_children_new (n : tnode) : children_iter := children_new (tn_raw n).
  (** api.rs:440-445 [SyntaxNodeChildren::next] *)
  Definition tn_children : iter children_iter tnode := map_next node_from node_children_next.
  (** api.rs:448-450 [SyntaxNodeChildren::by_kind]: the state it starts from *)
  Definition tn_by_kind_new (m : K -> bool) (it : children_iter) : res (option cursor) :=
    node_by_kind (raw_matcher m) it.
  (** api.rs:448-450: its [next] *)
  Definition tn_by_kind (m : K -> bool) : iter (option cursor) tnode :=
    map_next node_from (node_by_kind_next (raw_matcher m)).
  (** api.rs:459-464 [SyntaxElementChildren::next]; 144-146 *)
  Definition te_children : iter children_iter telem := map_next elem_from element_children_next.
  (** api.rs:467-472 [SyntaxElementChildren::by_kind]: the state it starts from *)
  Definition te_by_kind_new (m : K -> bool) (it : children_iter) : res (option cursor) :=
    element_by_kind (raw_matcher m) it.
  (** api.rs:467-472: its [next] *)
  Definition te_by_kind (m : K -> bool) : iter (option cursor) telem :=
    map_next elem_from (element_by_kind_next (raw_matcher m)).
  (** api.rs:148-150 *)
  Definition tn_first_child (n : tnode) : res (option tnode) := opt_map node_from (first_child (tn_raw n)).
  (** api.rs:152-156 *)
  Definition tn_first_child_by_kind (m : K -> bool) (n : tnode) : res (option tnode) :=
    opt_map node_from (first_child_by_kind (raw_matcher m) (tn_raw n)).
  (** api.rs:158-160 *)
  Definition tn_last_child (n : tnode) : res (option tnode) := opt_map node_from (last_child (tn_raw n)).
  (** api.rs:162-164 *)
  Definition tn_first_child_or_token (n : tnode) : res (option telem) :=
    opt_map elem_from (first_child_or_token (tn_raw n)).
  (** api.rs:166-173 *)
  Definition tn_first_child_or_token_by_kind (m : K -> bool) (n : tnode) : res (option telem) :=
    opt_map elem_from (first_child_or_token_by_kind (raw_matcher m) (tn_raw n)).
  (** api.rs:175-177 *)
  Definition tn_last_child_or_token (n : tnode) : res (option telem) :=
    opt_map elem_from (last_child_or_token (tn_raw n)).
  (** api.rs:179-181 *)
  Definition tn_next_sibling (n : tnode) : res (option tnode) := opt_map node_from (next_sibling (tn_raw n)).
  (** api.rs:183-190 *)
  Definition tn_next_sibling_by_kind (m : K -> bool) (n : tnode) : res (option tnode) :=
    opt_map node_from (next_sibling_by_kind (raw_matcher m) (tn_raw n)).
  (** api.rs:192-194 *)
  Definition tn_prev_sibling (n : tnode) : res (option tnode) := opt_map node_from (prev_sibling (tn_raw n)).
  (** api.rs:196-198 *)
  Definition tn_next_sibling_or_token (n : tnode) : res (option telem) :=
    opt_map elem_from (next_sibling_or_token (tn_raw n)).
  (** api.rs:200-207 *)
  Definition tn_next_sibling_or_token_by_kind (m : K -> bool) (n : tnode) : res (option telem) :=
    opt_map elem_from (next_sibling_or_token_by_kind (raw_matcher m) (tn_raw n)).
  (** api.rs:209-211 *)
  Definition tn_prev_sibling_or_token (n : tnode) : res (option telem) :=
    opt_map elem_from (prev_sibling_or_token (tn_raw n)).
  (** api.rs:214-216 *)
  Definition tn_first_token (n : tnode) : res (option ttok) := opt_map tok_from (first_token (tn_raw n)).
  (** api.rs:218-220 *)
  Definition tn_last_token (n : tnode) : res (option ttok) := opt_map tok_from (last_token (tn_raw n)).
  (** api.rs:222-224; the iterator starts from the node itself *)
  Definition tn_siblings (d : direction) : iter (option cursor) tnode := map_next node_from (siblings_next d).
  (** api.rs:226-231, 356-361; the iterator starts from the element itself *)
  Definition t_siblings_with_tokens (d : direction) : iter (option cursor) telem :=
    map_next elem_from (siblings_with_tokens_next d).
  (** api.rs:233-235 *)
  Definition tn_descendants (n : tnode) : res (list tnode) := map node_from <$> descendants (tn_raw n).
  (** api.rs:237-239 *)
  Definition tn_descendants_with_tokens (n : tnode) : res (list telem) :=
    map elem_from <$> descendants_with_tokens (tn_raw n).
  (** api.rs:243-245, 249-251 *)
  Definition tn_preorder_new (n : tnode) : preorder := preorder_new (tn_raw n).
  (** api.rs:486-491 [Preorder::next]; 480-484 [skip_subtree] is that of cursor.rs *)
  Definition tn_preorder : iter preorder (wevent tnode) := map_next (we_map node_from) preorder_next.
  (** api.rs:504-509 [PreorderWithTokens::next]; 498-502 *)
  Definition te_preorder : iter preorder (wevent telem) := map_next (we_map elem_from) preorder_wt_next.
  (** api.rs:255-257 *)
  Definition tn_token_at_offset (n : tnode) (offset : N) : res (token_at_offset_t ttok) :=
    tao_map tok_from <$> token_at_offset (tn_raw n) offset.
  (** api.rs:263-265 *)
  Definition tn_covering_element (n : tnode) (r : range) : res telem := elem_from <$> covering_element (tn_raw n) r.
  (** api.rs:272-274 *)
  Definition tn_child_or_token_at_range (n : tnode) (r : range) : res (option telem) :=
    opt_map elem_from (child_or_token_at_range (tn_raw n) r).

  (** ** Tokens *)
  (** api.rs:314-316 *)
  Definition tt_kind (t : ttok) : K := kfr (c_kind (tt_raw t)).
  (** api.rs:318-320 *)
  Definition tt_text_range (t : ttok) : res range := c_text_range (tt_raw t).
  (** api.rs:322-324 *)
  Definition tt_index (t : ttok) : nat := c_index (tt_raw t).
  (** api.rs:326-328 *)
  Definition tt_text (t : ttok) : str := c_text (tt_raw t).
  (** api.rs:334-336 *)
  Definition tt_parent (t : ttok) : option tnode := node_from <$> c_parent (tt_raw t).
  (** api.rs:340-347 [ancestors], [parent_ancestors]; cursor.rs:1057-1059: what
      the iterator starts from *)
  Definition tt_parent_ancestors_new (t : ttok) : option cursor := c_parent (tt_raw t).
  (** api.rs:349-351 *)
  Definition tt_next_sibling_or_token (t : ttok) : res (option telem) :=
    opt_map elem_from (next_sibling_or_token (tt_raw t)).
  (** api.rs:352-354 *)
  Definition tt_prev_sibling_or_token (t : ttok) : res (option telem) :=
    opt_map elem_from (prev_sibling_or_token (tt_raw t)).
  (** api.rs:364-366 *)
  Definition tt_next_token (t : ttok) : res (option ttok) := opt_map tok_from (next_token (tt_raw t)).
  (** api.rs:368-370 *)
  Definition tt_prev_token (t : ttok) : res (option ttok) := opt_map tok_from (prev_token (tt_raw t)).

  (** ** Elements *)
  (** api.rs:378-383 *)
  Definition te_text_range (e : telem) : res range :=
    match e with NTNode it => tn_text_range it | NTToken it => tt_text_range it end.
  (** api.rs:385-390 *)
  Definition te_index (e : telem) : nat :=
    match e with NTNode it => tn_index it | NTToken it => tt_index it end.
  (** api.rs:392-397 *)
  Definition te_kind (e : telem) : K :=
    match e with NTNode it => tn_kind it | NTToken it => tt_kind it end.
  (** api.rs:399-404 *)
  Definition te_parent (e : telem) : option tnode :=
    match e with NTNode it => tn_parent it | NTToken it => tt_parent it end.
  (** api.rs:406-412: [iter::successors] over typed nodes, started from [first] *)
  Definition te_ancestors_new (e : telem) : option tnode :=
    match e with NTNode it => Some it | NTToken it => tt_parent it end.
  (** api.rs:411: its [next] *)
  Definition te_ancestors : iter (option tnode) tnode := fun st =>
    match st with None => Ok (None, None) | Some item => Ok (Some item, tn_parent item) end.
  (** api.rs:414-419 *)
  Definition te_next_sibling_or_token (e : telem) : res (option telem) :=
    match e with NTNode it => tn_next_sibling_or_token it | NTToken it => tt_next_sibling_or_token it end.
  (** api.rs:420-425 *)
  Definition te_prev_sibling_or_token (e : telem) : res (option telem) :=
    match e with NTNode it => tn_prev_sibling_or_token it | NTToken it => tt_prev_sibling_or_token it end.
End language.

(** ** Specification: typed handles at positions *)
(** specification: [n] is the node of [root] at [p] *)
Definition node_at (root : green) (p : pos) (n : tnode) : Prop :=
  cursor_at root p = Some (tn_raw n) /\ exists k cs, tsub (erase root) p = Some (Node k cs).
(** specification: [t] is the token of [root] at [p] *)
Definition tok_at (root : green) (p : pos) (t : ttok) : Prop :=
  cursor_at root p = Some (tt_raw t) /\ exists k s, tsub (erase root) p = Some (Token k s).
(** specification: [e] is the element of [root] at [p], with the right variant *)
Definition elem_at (root : green) (p : pos) (e : telem) : Prop :=
  match e with NTNode n => node_at root p n | NTToken t => tok_at root p t end.
(** specification: the call succeeds, with nothing when [o] is [None] and
    otherwise with what is at the position [o] *)
Definition gives {A} (R : pos -> A -> Prop) (r : res (option A)) (o : option pos) : Prop :=
  exists a, r = Ok a /\
  match o, a with None, None => True | Some p, Some x => R p x | _, _ => False end.
(** specification: the iterator yields what is at the positions [ps], in order *)
Definition iter_gives {S A} (R : pos -> A -> Prop) (next : iter S A) (s : S) (ps : list pos) : Prop :=
  exists l, yields next s l /\ Forall2 R ps l.
(** specification: walk events at positions *)
Definition ev_gives {A} (R : pos -> A -> Prop) (e : wevent pos) (e' : wevent A) : Prop :=
  match e, e' with Enter q, Enter c | Leave q, Leave c => R q c | _, _ => False end.
