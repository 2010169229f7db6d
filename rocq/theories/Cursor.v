(** * Syntax elements of an immutable tree: src/cursor.rs

    A [NodeData] of an immutable tree never changes after its creation (except
    for the in-place reuse of [to_next_sibling*], which is modelled in the node
    heap), so here a handle is a value: the parent handle, the index among the
    parent's children, the stored absolute offset and the green element.
    Reference counts, links and addresses of [NodeData]s are in the node heap
    (Heap.v), which is proved to refine this model.  [SyntaxNode] and
    [SyntaxToken] are both [cursor]; functions of [SyntaxNode] are only applied
    to cursors with a green node.

    All [u32] additions are [add32 Checked]: an overflow is a panic. *)
From Verif Require Export GreenFacts.

(** cursor.rs:112-130 [NodeData] with [mutable = false] *)
Inductive cursor :=
| CRoot (g : green)
| CChild (parent : cursor) (index : nat) (off : N) (g : green).

(** cursor.rs:323-328 [green] *)
Definition c_green (c : cursor) : green := match c with CRoot g | CChild _ _ _ g => g end.
(** cursor.rs:310-320 [parent_node], [parent]; 666, 1052, 1150 [parent] *)
Definition c_parent (c : cursor) : option cursor :=
  match c with CRoot _ => None | CChild p _ _ _ => Some p end.
(** cursor.rs:341-344 [index]; a root has index 0 (553-557) *)
Definition c_index (c : cursor) : nat := match c with CRoot _ => 0 | CChild _ i _ _ => i end.
(** cursor.rs:346-349 [offset] (immutable case); a root has offset 0 *)
Definition c_offset (c : cursor) : N := match c with CRoot _ => 0 | CChild _ _ o _ => o end.
(** cursor.rs:371-374 [kind] *)
Definition c_kind (c : cursor) : kind := gkind (c_green c).
(** cursor.rs:105-108, 323-328 [GreenElementRef] of a [NodeData] is a node *)
Definition c_is_node (c : cursor) : bool := gis_node (c_green c).
(** cursor.rs:364-369 [text_range]: [TextRange::at(offset, len)] *)
Definition c_text_range (c : cursor) : res range :=
  len ← green_text_len (c_green c);
  e ← add32 Checked (c_offset c) len;
  Ok (TR (c_offset c) e).
(** cursor.rs:330-339 [green_siblings] *)
Definition green_siblings (c : cursor) : list (N * green) :=
  match c_parent c with Some p => gchildren (c_green p) | None => [] end.

(** cursor.rs:553-557 [new_root] *)
Definition new_root (g : green) : cursor := CRoot g.

(** the common tail of the navigation functions:
    [let offset = parent.offset() + child.rel_offset(); new_child(green, parent, index, offset)]
    (cursor.rs:565-574, 977-986, 1114-1124) *)
Definition mk_child (parent : cursor) (ic : nat * (N * green)) : res cursor :=
  offset ← add32 Checked (c_offset parent) ic.2.1;
  Ok (CChild parent ic.1 offset ic.2.2).
(** the [map] around [new_child], e.g. cursor.rs:692-695 *)
Definition mk_child_opt (parent : cursor) (o : option (nat * (N * green))) : res (option cursor) :=
  match o with Some ic => Some <$> mk_child parent ic | None => Ok None end.

(** the selections made inside [find_map]: [child.as_ref().into_node()] *)
(** cursor.rs:686-695, 378-386 *)
Definition sel_node (ic : nat * (N * green)) : option (nat * (N * green)) :=
  if gis_node ic.2.2 then Some ic else None.
(** [if !matcher(kind) { return None }] then [into_node()] *)
(** cursor.rs:699-711, 392-402 *)
Definition sel_node_kind (m : kind -> bool) (ic : nat * (N * green)) : option (nat * (N * green)) :=
  if m (gkind ic.2.2) then sel_node ic else None.
(** [if !matcher(kind) { return None }] *)
(** cursor.rs:737-747, 435-443 *)
Definition sel_kind (m : kind -> bool) (ic : nat * (N * green)) : option (nat * (N * green)) :=
  if m (gkind ic.2.2) then Some ic else None.

(** ** Children *)
(** cursor.rs:685-696 *)
Definition first_child (c : cursor) : res (option cursor) :=
  mk_child_opt c (find_map sel_node (enumerate (gchildren (c_green c)))).
(** cursor.rs:698-712 *)
Definition first_child_by_kind (m : kind -> bool) (c : cursor) : res (option cursor) :=
  mk_child_opt c (find_map (sel_node_kind m) (enumerate (gchildren (c_green c)))).
(** cursor.rs:714-725 *)
Definition last_child (c : cursor) : res (option cursor) :=
  mk_child_opt c (find_map sel_node (rev (enumerate (gchildren (c_green c))))).
(** cursor.rs:727-731 *)
Definition first_child_or_token (c : cursor) : res (option cursor) :=
  mk_child_opt c (pair 0 <$> head (gchildren (c_green c))).
(** cursor.rs:733-748 *)
Definition first_child_or_token_by_kind (m : kind -> bool) (c : cursor) : res (option cursor) :=
  mk_child_opt c (find_map (sel_kind m) (enumerate (gchildren (c_green c)))).
(** cursor.rs:750-759 *)
Definition last_child_or_token (c : cursor) : res (option cursor) :=
  mk_child_opt c (last (enumerate (gchildren (c_green c)))).

(** ** Siblings *)
(** [self.parent_node()?] inside the closures *)
(** cursor.rs:380-386, 422-426 *)
Definition mk_sibling_opt (c : cursor) (o : option (nat * (N * green))) : res (option cursor) :=
  match o, c_parent c with
  | Some ic, Some parent => Some <$> mk_child parent ic
  | _, _ => Ok None
  end.
(** cursor.rs:376-387; 796 *)
Definition next_sibling (c : cursor) : res (option cursor) :=
  mk_sibling_opt c (find_map sel_node (drop (c_index c + 1) (enumerate (green_siblings c)))).
(** cursor.rs:389-403; 800 *)
Definition next_sibling_by_kind (m : kind -> bool) (c : cursor) : res (option cursor) :=
  mk_sibling_opt c (find_map (sel_node_kind m) (drop (c_index c + 1) (enumerate (green_siblings c)))).
(** cursor.rs:405-416; 807.  [checked_sub(..)?] *)
Definition prev_sibling (c : cursor) : res (option cursor) :=
  let rev_siblings := rev (enumerate (green_siblings c)) in
  if length rev_siblings <? c_index c then Ok None
  else mk_sibling_opt c (find_map sel_node (drop (length rev_siblings - c_index c) rev_siblings)).
(** cursor.rs:418-427; 811, 1062, 1183 *)
Definition next_sibling_or_token (c : cursor) : res (option cursor) :=
  mk_sibling_opt c (enumerate (green_siblings c) !! (c_index c + 1)).
(** cursor.rs:429-444; 815, 1066, 1243 *)
Definition next_sibling_or_token_by_kind (m : kind -> bool) (c : cursor) : res (option cursor) :=
  mk_sibling_opt c (find_map (sel_kind m) (drop (c_index c + 1) (enumerate (green_siblings c)))).
(** cursor.rs:446-455; 822, 1073, 1253 *)
Definition prev_sibling_or_token (c : cursor) : res (option cursor) :=
  match c_index c with
  | 0 => Ok None
  | S index => mk_sibling_opt c (enumerate (green_siblings c) !! index)
  end.

(** ** Iterators: a state and a [next] function *)
(** the [Iterator] implementations cursor.rs:1386-1584: state and [next] *)
Definition iter S A := S -> res (option A * S).

(** cursor.rs:1357-1398 [SyntaxNodeChildren] and 1416-1460 [SyntaxElementChildren].
    [to_next_sibling(_or_token)] returns what [next_sibling(_or_token)] returns
    (the in-place variant is in Heap.v). *)
Record children_iter := CI { ci_parent : cursor; ci_next : option cursor; ci_init : bool }.
(** cursor.rs:1364, 1423 [new]; 675, 680 *)
Definition children_new (c : cursor) : children_iter := CI c None false.
(** cursor.rs:1388-1399 *)
Definition node_children_next : iter children_iter cursor := fun it =>
  nx ← (if negb (ci_init it) then first_child (ci_parent it)
        else match ci_next it with Some next => next_sibling next | None => Ok None end);
  Ok (nx, CI (ci_parent it) nx true).
(** cursor.rs:1448-1460 *)
Definition element_children_next : iter children_iter cursor := fun it =>
  nx ← (if negb (ci_init it) then first_child_or_token (ci_parent it)
        else match ci_next it with Some next => next_sibling_or_token next | None => Ok None end);
  Ok (nx, CI (ci_parent it) nx true).
(** cursor.rs:1368-1383 [by_kind]; the state of the resulting iterator is its [next] *)
Definition node_by_kind (m : kind -> bool) (it : children_iter) : res (option cursor) :=
  if negb (ci_init it) then first_child_by_kind m (ci_parent it)
  else match ci_next it with
       | Some node => if m (c_kind node) then Ok (Some node) else next_sibling_by_kind m node
       | None => Ok None
       end.
(** cursor.rs:1427-1445 *)
Definition element_by_kind (m : kind -> bool) (it : children_iter) : res (option cursor) :=
  if negb (ci_init it) then first_child_or_token_by_kind m (ci_parent it)
  else match ci_next it with
       | Some node => if m (c_kind node) then Ok (Some node) else next_sibling_or_token_by_kind m node
       | None => Ok None
       end.
(** [iter::successors] (std); also the shape of [*ChildrenByKind::next]
    (1408-1414, 1468-1474): yield [next], then set [next := succ next] *)
Definition successors_next (succ : cursor -> res (option cursor)) : iter (option cursor) cursor := fun st =>
  match st with
  | None => Ok (None, None)
  | Some item => nx ← succ item; Ok (Some item, nx)
  end.
(** cursor.rs:1408-1414 *)
Definition node_by_kind_next (m : kind -> bool) := successors_next (next_sibling_by_kind m).
(** cursor.rs:1468-1474 *)
Definition element_by_kind_next (m : kind -> bool) := successors_next (next_sibling_or_token_by_kind m).
(** cursor.rs:671-673, 1057-1059, 1159-1165 [ancestors]: successors of [parent] *)
Definition ancestors_next := successors_next (fun c => Ok (c_parent c)).
(** cursor.rs:671-673, 1057-1059, 1159-1165: what the iterator starts from *)
Definition ancestors_new (c : cursor) : option cursor := if c_is_node c then Some c else c_parent c.
(** utility_types.rs:62-65 [Direction] *)
Inductive direction := Next | Prev.
(** cursor.rs:834-839 [siblings] *)
Definition siblings_next (d : direction) :=
  successors_next (match d with Next => next_sibling | Prev => prev_sibling end).
(** cursor.rs:842-851, 1077-1086 [siblings_with_tokens] *)
Definition siblings_with_tokens_next (d : direction) :=
  successors_next (match d with Next => next_sibling_or_token | Prev => prev_sibling_or_token end).

(** run an iterator to the end: [None] when it does not end within the fuel *)
(** std; an iterator used up by a [for] loop *)
Fixpoint collect {S A} (next : iter S A) (fuel : nat) (s : S) : res (list A) :=
  match fuel with
  | 0 => Err Diverge
  | S fuel' =>
      '(o, s') ← next s;
      match o with
      | None => Ok []
      | Some a => cons a <$> collect next fuel' s'
      end
  end.

(** ** Preorder: cursor.rs:1477-1584 *)
(** cursor.rs:301-307 [key], 1279-1284, 1316-1321 [PartialEq] *)
Definition c_key (c : cursor) : addr * N := (gaddr (c_green c), c_offset c).
(** cursor.rs:1279-1284, 1316-1321 [PartialEq] *)
Definition c_eqb (c1 c2 : cursor) : bool :=
  (gaddr (c_green c1) =? gaddr (c_green c2)) && (c_offset c1 =? c_offset c2)%N.

(** cursor.rs:1477-1481, 1532-1536 [Preorder], [PreorderWithTokens] *)
Record preorder := PO { po_start : cursor; po_next : option (wevent cursor); po_skip : bool }.
(** cursor.rs:1484-1487, 1539-1542 *)
Definition preorder_new (start : cursor) : preorder := PO start (Some (Enter start)) false.
(** cursor.rs:1489-1491, 1544-1546 *)
Definition skip_subtree (po : preorder) : preorder := PO (po_start po) (po_next po) true.
(** cursor.rs:1493-1499, 1548-1554 *)
Definition do_skip (next : option (wevent cursor)) : res (option (wevent cursor)) :=
  match next with
  | None => Ok None
  | Some (Enter first_child) => p ← unwrap (c_parent first_child); Ok (Some (Leave p))
  | Some (Leave parent) => Ok (Some (Leave parent))
  end.
(** the successor event: cursor.rs:1512-1527 *)
Definition preorder_succ (start : cursor) (e : wevent cursor) : res (option (wevent cursor)) :=
  match e with
  | Enter node =>
      fc ← first_child node;
      Ok (Some match fc with Some child => Enter child | None => Leave node end)
  | Leave node =>
      if c_eqb node start then Ok None else
      ns ← next_sibling node;
      Ok match ns with
         | Some sibling => Some (Enter sibling)
         | None => Leave <$> c_parent node
         end
  end.
(** cursor.rs:1567-1581 *)
Definition preorder_wt_succ (start : cursor) (e : wevent cursor) : res (option (wevent cursor)) :=
  match e with
  | Enter el =>
      if c_is_node el then
        fc ← first_child_or_token el;
        Ok (Some match fc with Some child => Enter child | None => Leave el end)
      else Ok (Some (Leave el))
  | Leave el =>
      if c_eqb el start then Ok None else
      ns ← next_sibling_or_token el;
      Ok match ns with
         | Some sibling => Some (Enter sibling)
         | None => Leave <$> c_parent el
         end
  end.
(** cursor.rs:1505-1530, 1560-1584 [next] *)
Definition preorder_next_gen (succ : cursor -> wevent cursor -> res (option (wevent cursor)))
    : iter preorder (wevent cursor) := fun po =>
  next ← (if po_skip po then do_skip (po_next po) else Ok (po_next po));
  match next with
  | None => Ok (None, PO (po_start po) None false)
  | Some e => nx ← succ (po_start po) e; Ok (Some e, PO (po_start po) nx false)
  end.
(** cursor.rs:1502-1530 *)
Definition preorder_next := preorder_next_gen preorder_succ.
(** cursor.rs:1557-1584 *)
Definition preorder_wt_next := preorder_next_gen preorder_wt_succ.

(** [filter_map] on an iterator (std): skip items until the function gives [Some] *)
(** std; used at cursor.rs:855-858, syntax_text.rs:110-116 *)
Fixpoint filter_map_next {S A B} (next : iter S A) (f : A -> option B) (fuel : nat) (s : S) : res (option B * S) :=
  match fuel with
  | 0 => Err Diverge
  | S fuel' =>
      '(o, s') ← next s;
      match o with
      | None => Ok (None, s')
      | Some a => match f a with Some b => Ok (Some b, s') | None => filter_map_next next f fuel' s' end
      end
  end.
(** number of elements of a green tree; bounds the length of a walk *)
(** helper: no counterpart in the code *)
Fixpoint gsize (g : green) : nat :=
  match g with GTok _ _ _ => 1 | GNode _ _ _ cs => S (sum_list (map (fun c => gsize c.2) cs)) end.
(** cursor.rs:855-858, 863-866: the closure *)
Definition enter_only (e : wevent cursor) : option cursor :=
  match e with Enter c => Some c | Leave _ => None end.
(** cursor.rs:854-859 [descendants] *)
Definition descendants (c : cursor) : res (list cursor) :=
  filter_map enter_only <$> collect preorder_next (S (2 * gsize (c_green c))) (preorder_new c).
(** cursor.rs:862-867 [descendants_with_tokens] *)
Definition descendants_with_tokens (c : cursor) : res (list cursor) :=
  filter_map enter_only <$> collect preorder_wt_next (S (2 * gsize (c_green c))) (preorder_new c).

(** ** Tokens *)
(** cursor.rs:826-828, 1167-1172 [first_token]; recursion bounded by fuel *)
Fixpoint first_token_f (fuel : nat) (c : cursor) : res (option cursor) :=
  match fuel with
  | 0 => Err Diverge
  | S fuel' =>
      if c_is_node c then
        o ← first_child_or_token c;
        match o with Some el => first_token_f fuel' el | None => Ok None end
      else Ok (Some c)
  end.
(** cursor.rs:826-828, 1167-1172 *)
Definition first_token (c : cursor) : res (option cursor) := first_token_f (gsize (c_green c)) c.
(** cursor.rs:829-831, 1173-1178 [last_token] *)
Fixpoint last_token_f (fuel : nat) (c : cursor) : res (option cursor) :=
  match fuel with
  | 0 => Err Diverge
  | S fuel' =>
      if c_is_node c then
        o ← last_child_or_token c;
        match o with Some el => last_token_f fuel' el | None => Ok None end
      else Ok (Some c)
  end.
(** cursor.rs:829-831, 1173-1178 *)
Definition last_token (c : cursor) : res (option cursor) := last_token_f (gsize (c_green c)) c.

(** [ancestors().find_map(f)]: structural on the parent chain *)
(** used at cursor.rs:1093, 1102 *)
Fixpoint ancestors_find_map (f : cursor -> res (option cursor)) (c : cursor) : res (option cursor) :=
  match c with
  | CRoot _ => f c
  | CChild p _ _ _ =>
      o ← f c;
      match o with Some r => Ok (Some r) | None => ancestors_find_map f p end
  end.
(** cursor.rs:1088-1096 [next_token] *)
Definition next_token (c : cursor) : res (option cursor) :=
  o ← next_sibling_or_token c;
  match o with
  | Some element => first_token element
  | None =>
      match c_parent c with
      | None => Ok None
      | Some p =>
          o ← ancestors_find_map next_sibling_or_token p;
          match o with Some element => first_token element | None => Ok None end
      end
  end.
(** cursor.rs:1097-1105 [prev_token] *)
Definition prev_token (c : cursor) : res (option cursor) :=
  o ← prev_sibling_or_token c;
  match o with
  | Some element => last_token element
  | None =>
      match c_parent c with
      | None => Ok None
      | Some p =>
          o ← ancestors_find_map prev_sibling_or_token p;
          match o with Some element => last_token element | None => Ok None end
      end
  end.

(** ** Search *)
(** utility_types.rs:87-94 [TokenAtOffset] *)
Inductive token_at_offset_t (A : Type) := TaoNone | TaoSingle (a : A) | TaoBetween (a b : A).
Arguments TaoNone {_}.
Arguments TaoSingle {_} _.
Arguments TaoBetween {_} _ _.

(** [children_with_tokens()] to the end *)
(** cursor.rs:681-683, 1416-1460 *)
Definition children_with_tokens (c : cursor) : res (list cursor) :=
  collect element_children_next (S (length (gchildren (c_green c)))) (children_new c).
(** cursor.rs:676-678, 1357-1398 *)
Definition children (c : cursor) : res (list cursor) :=
  collect node_children_next (S (length (gchildren (c_green c)))) (children_new c).

(** the filter of cursor.rs:894-898, applied to each child *)
Fixpoint filter_res {A} (f : A -> res bool) (l : list A) : res (list A) :=
  match l with
  | [] => Ok []
  | x :: l' => b ← f x; r ← filter_res f l'; Ok (if b : bool then x :: r else r)
  end.
(** cursor.rs:894-898: the closure *)
Definition touches (offset : N) (c : cursor) : res bool :=
  r ← c_text_range c;
  Ok (negb (range_is_empty r) && ((rstart r <=? offset)%N && (offset <=? rend r)%N)).
(** cursor.rs:879-914 [SyntaxNode::token_at_offset] and 1260-1266
    [SyntaxElement::token_at_offset] in one function.  The three [next] calls on
    the lazy filter are modelled as a match on the filtered list: the code asks
    for at most three elements, and panics if there is a third. *)
Fixpoint token_at_offset_f (fuel : nat) (c : cursor) (offset : N) : res (token_at_offset_t cursor) :=
  match fuel with
  | 0 => Err Diverge
  | S fuel' =>
      range ← c_text_range c;
      _ ← rassert ((rstart range <=? offset)%N && (offset <=? rend range)%N);
      if negb (c_is_node c) then Ok (TaoSingle c) else
      if range_is_empty range then Ok TaoNone else
      cs ← children_with_tokens c;
      l ← filter_res (touches offset) cs;
      match l with
      | [] => Err Panic
      | [lft] => token_at_offset_f fuel' lft offset
      | [lft; rgt] =>
          tl ← token_at_offset_f fuel' lft offset;
          tr ← token_at_offset_f fuel' rgt offset;
          match tl, tr with
          | TaoSingle l, TaoSingle r => Ok (TaoBetween l r)
          | _, _ => Err Panic
          end
      | _ => Err Panic
      end
  end.
(** cursor.rs:879-914, 1260-1266 *)
Definition token_at_offset (c : cursor) (offset : N) : res (token_at_offset_t cursor) :=
  token_at_offset_f (gsize (c_green c)) c offset.

(** cursor.rs:935-940 [child_or_token_at_range] *)
Definition child_or_token_at_range (c : cursor) (r : range) : res (option cursor) :=
  rel ← range_sub r (c_offset c);
  match child_at_range (c_green c) rel with
  | Some (index, rel_offset, green) => Some <$> mk_child c (index, (rel_offset, green))
  | None => Ok None
  end.
(** cursor.rs:916-933 [covering_element] *)
Fixpoint covering_element_f (fuel : nat) (el : cursor) (r : range) : res cursor :=
  match fuel with
  | 0 => Err Diverge
  | S fuel' =>
      tr ← c_text_range el;
      _ ← rassert (contains_range tr r);
      if negb (c_is_node el) then Ok el else
      o ← child_or_token_at_range el r;
      match o with Some it => covering_element_f fuel' it r | None => Ok el end
  end.
(** cursor.rs:916-933 *)
Definition covering_element (c : cursor) (r : range) : res cursor :=
  covering_element_f (gsize (c_green c)) c r.

(** ** Functional replacement *)
(** cursor.rs:614-625 [SyntaxNode::replace_with]; [al] gives the addresses of
    the new nodes, innermost first *)
Fixpoint replace_with (al : nat -> addr) (c : cursor) (replacement : green) : res green :=
  _ ← rassert (gkind (c_green c) =? gkind replacement)%N;
  match c with
  | CRoot _ => Ok replacement
  | CChild parent index _ _ =>
      new_parent ← green_replace_child Checked (al 0) (c_green parent) index replacement;
      replace_with (fun n => al (S n)) parent new_parent
  end.
(** cursor.rs:1007-1014 [SyntaxToken::replace_with] *)
Definition token_replace_with (al : nat -> addr) (c : cursor) (replacement : green) : res green :=
  _ ← rassert (gkind (c_green c) =? gkind replacement)%N;
  match c with
  | CRoot _ => Err Panic
  | CChild parent index _ _ =>
      new_parent ← green_replace_child Checked (al 0) (c_green parent) index replacement;
      replace_with (fun n => al (S n)) parent new_parent
  end.

(** ** Positions of cursors *)

(** the cursor at a position of the tree *)
(** specification: positions of cursors *)
Definition child_at (c : cursor) (i : nat) : option cursor :=
  match gchildren (c_green c) !! i with
  | Some ch => Some (CChild c i (c_offset c + ch.1) ch.2)
  | None => None
  end.
(** specification: positions of cursors *)
Definition cursor_at (root : green) (p : pos) : option cursor :=
  fold_left (fun oc i => oc ≫= fun c => child_at c i) p (Some (CRoot root)).

(** the path of a cursor and its root *)
(** specification: positions of cursors *)
Fixpoint c_path (c : cursor) : pos :=
  match c with CRoot _ => [] | CChild p i _ _ => c_path p ++ [i] end.
(** specification: positions of cursors *)
Fixpoint c_root (c : cursor) : green :=
  match c with CRoot g => g | CChild p _ _ _ => c_root p end.

(** ** Running iterators *)
(** [yields next s l]: calling [next] repeatedly from [s] gives exactly the
    items of [l], then [None], and [None] again from then on *)
(** specification of iterators *)
Inductive yields {S A} (next : iter S A) : S -> list A -> Prop :=
| yields_nil s s' : next s = Ok (None, s') -> next s' = Ok (None, s') -> yields next s []
| yields_cons s a s' l : next s = Ok (Some a, s') -> yields next s' l -> yields next s (a :: l).
(** a finite number of steps *)
(** specification of iterators *)
Inductive steps {S A} (next : iter S A) : S -> list A -> S -> Prop :=
| steps_nil s : steps next s [] s
| steps_cons s a s' l s'' : next s = Ok (Some a, s') -> steps next s' l s'' -> steps next s (a :: l) s''.
