(** * Child indices of 32 bits: [index as u32] in src/cursor.rs

    [NodeData::index] is a [Cell<u32>] (cursor.rs:117), and every navigation
    function converts a [usize] position into it with [as u32]
    (cursor.rs:384, 400, 413, 425, 442, 453, 691-755, 781, 938, 1220).
    Cursor.v keeps the position itself.  This file has the navigation functions
    of Cursor.v with the conversion written out as a parameter [ix]: with the
    identity they are the functions of Cursor.v (Index32Facts.v, by
    computation), with [idx32] they are what the code does.  The functions that
    do not create elements ([c_text_range], [do_skip], [replace_with], ...) are
    shared.  [index() as usize] loses nothing and is not written. *)
From Verif Require Export CursorFacts.

(** 2^32 as a natural number; opaque, as it must never be computed *)
(** the range of [u32], cursor.rs:117 *)
Definition w32 : nat := N.to_nat (2 ^ 32).
(** the conversion [index as u32] of a [usize], e.g. cursor.rs:384 *)
Definition idx32 (i : nat) : nat := i mod w32.
Lemma w32_pos : 0 < w32.
Proof.
  unfold w32. assert (H : (0 < 2 ^ 32)%N) by reflexivity. revert H. generalize (2 ^ 32)%N.
  intros n H. lia.
Qed.
Global Opaque w32.

Section ix.
Context (ix : nat -> nat).

(** the common tail of the navigation functions:
    [let offset = parent.offset() + child.rel_offset(); new_child(green, parent, index, offset)]
    (cursor.rs:565-574, 977-986, 1114-1124); [index as u32] is [ix] *)
Definition mk_child_i (parent : cursor) (ic : nat * (N * green)) : res cursor :=
  offset ← add32 Checked (c_offset parent) ic.2.1;
  Ok (CChild parent (ix ic.1) offset ic.2.2).
(** the [map] around [new_child], e.g. cursor.rs:692-695 *)
Definition mk_child_opt_i (parent : cursor) (o : option (nat * (N * green))) : res (option cursor) :=
  match o with Some ic => Some <$> mk_child_i parent ic | None => Ok None end.

(** ** Children *)
(** cursor.rs:685-696 *)
Definition first_child_i (c : cursor) : res (option cursor) :=
  mk_child_opt_i c (find_map sel_node (enumerate (gchildren (c_green c)))).
(** cursor.rs:698-712 *)
Definition first_child_by_kind_i (m : kind -> bool) (c : cursor) : res (option cursor) :=
  mk_child_opt_i c (find_map (sel_node_kind m) (enumerate (gchildren (c_green c)))).
(** cursor.rs:714-725 *)
Definition last_child_i (c : cursor) : res (option cursor) :=
  mk_child_opt_i c (find_map sel_node (rev (enumerate (gchildren (c_green c))))).
(** cursor.rs:727-731 *)
Definition first_child_or_token_i (c : cursor) : res (option cursor) :=
  mk_child_opt_i c (pair 0 <$> head (gchildren (c_green c))).
(** cursor.rs:733-748 *)
Definition first_child_or_token_by_kind_i (m : kind -> bool) (c : cursor) : res (option cursor) :=
  mk_child_opt_i c (find_map (sel_kind m) (enumerate (gchildren (c_green c)))).
(** cursor.rs:750-759 *)
Definition last_child_or_token_i (c : cursor) : res (option cursor) :=
  mk_child_opt_i c (last (enumerate (gchildren (c_green c)))).

(** ** Siblings *)
(** [self.parent_node()?] inside the closures *)
(** cursor.rs:380-386, 422-426 *)
Definition mk_sibling_opt_i (c : cursor) (o : option (nat * (N * green))) : res (option cursor) :=
  match o, c_parent c with
  | Some ic, Some parent => Some <$> mk_child_i parent ic
  | _, _ => Ok None
  end.
(** cursor.rs:376-387; 796 *)
Definition next_sibling_i (c : cursor) : res (option cursor) :=
  mk_sibling_opt_i c (find_map sel_node (drop (c_index c + 1) (enumerate (green_siblings c)))).
(** cursor.rs:389-403; 800 *)
Definition next_sibling_by_kind_i (m : kind -> bool) (c : cursor) : res (option cursor) :=
  mk_sibling_opt_i c (find_map (sel_node_kind m) (drop (c_index c + 1) (enumerate (green_siblings c)))).
(** cursor.rs:405-416; 807.  [checked_sub(..)?] *)
Definition prev_sibling_i (c : cursor) : res (option cursor) :=
  let rev_siblings := rev (enumerate (green_siblings c)) in
  if length rev_siblings <? c_index c then Ok None
  else mk_sibling_opt_i c (find_map sel_node (drop (length rev_siblings - c_index c) rev_siblings)).
(** cursor.rs:418-427; 811, 1062, 1183 *)
Definition next_sibling_or_token_i (c : cursor) : res (option cursor) :=
  mk_sibling_opt_i c (enumerate (green_siblings c) !! (c_index c + 1)).
(** cursor.rs:429-444; 815, 1066, 1243 *)
Definition next_sibling_or_token_by_kind_i (m : kind -> bool) (c : cursor) : res (option cursor) :=
  mk_sibling_opt_i c (find_map (sel_kind m) (drop (c_index c + 1) (enumerate (green_siblings c)))).
(** cursor.rs:446-455; 822, 1073, 1253 *)
Definition prev_sibling_or_token_i (c : cursor) : res (option cursor) :=
  match c_index c with
  | 0 => Ok None
  | S index => mk_sibling_opt_i c (enumerate (green_siblings c) !! index)
  end.

(** cursor.rs:1388-1399 *)
Definition node_children_next_i : iter children_iter cursor := fun it =>
  nx ← (if negb (ci_init it) then first_child_i (ci_parent it)
        else match ci_next it with Some next => next_sibling_i next | None => Ok None end);
  Ok (nx, CI (ci_parent it) nx true).
(** cursor.rs:1448-1460 *)
Definition element_children_next_i : iter children_iter cursor := fun it =>
  nx ← (if negb (ci_init it) then first_child_or_token_i (ci_parent it)
        else match ci_next it with Some next => next_sibling_or_token_i next | None => Ok None end);
  Ok (nx, CI (ci_parent it) nx true).
(** cursor.rs:1368-1383 [by_kind]; the state of the resulting iterator is its [next] *)
Definition node_by_kind_i (m : kind -> bool) (it : children_iter) : res (option cursor) :=
  if negb (ci_init it) then first_child_by_kind_i m (ci_parent it)
  else match ci_next it with
       | Some node => if m (c_kind node) then Ok (Some node) else next_sibling_by_kind_i m node
       | None => Ok None
       end.
(** cursor.rs:1427-1445 *)
Definition element_by_kind_i (m : kind -> bool) (it : children_iter) : res (option cursor) :=
  if negb (ci_init it) then first_child_or_token_by_kind_i m (ci_parent it)
  else match ci_next it with
       | Some node => if m (c_kind node) then Ok (Some node) else next_sibling_or_token_by_kind_i m node
       | None => Ok None
       end.
(** cursor.rs:1408-1414 *)
Definition node_by_kind_next_i (m : kind -> bool) := successors_next (next_sibling_by_kind_i m).
(** cursor.rs:1468-1474 *)
Definition element_by_kind_next_i (m : kind -> bool) := successors_next (next_sibling_or_token_by_kind_i m).
(** cursor.rs:834-839 [siblings] *)
Definition siblings_next_i (d : direction) :=
  successors_next (match d with Next => next_sibling_i | Prev => prev_sibling_i end).
(** cursor.rs:842-851, 1077-1086 [siblings_with_tokens] *)
Definition siblings_with_tokens_next_i (d : direction) :=
  successors_next (match d with Next => next_sibling_or_token_i | Prev => prev_sibling_or_token_i end).

(** the successor event: cursor.rs:1512-1527 *)
Definition preorder_succ_i (start : cursor) (e : wevent cursor) : res (option (wevent cursor)) :=
  match e with
  | Enter node =>
      fc ← first_child_i node;
      Ok (Some match fc with Some child => Enter child | None => Leave node end)
  | Leave node =>
      if c_eqb node start then Ok None else
      ns ← next_sibling_i node;
      Ok match ns with
         | Some sibling => Some (Enter sibling)
         | None => Leave <$> c_parent node
         end
  end.
(** cursor.rs:1567-1581 *)
Definition preorder_wt_succ_i (start : cursor) (e : wevent cursor) : res (option (wevent cursor)) :=
  match e with
  | Enter el =>
      if c_is_node el then
        fc ← first_child_or_token_i el;
        Ok (Some match fc with Some child => Enter child | None => Leave el end)
      else Ok (Some (Leave el))
  | Leave el =>
      if c_eqb el start then Ok None else
      ns ← next_sibling_or_token_i el;
      Ok match ns with
         | Some sibling => Some (Enter sibling)
         | None => Leave <$> c_parent el
         end
  end.
(** cursor.rs:1502-1530 *)
Definition preorder_next_i := preorder_next_gen preorder_succ_i.
(** cursor.rs:1557-1584 *)
Definition preorder_wt_next_i := preorder_next_gen preorder_wt_succ_i.

(** cursor.rs:854-859 [descendants] *)
Definition descendants_i (c : cursor) : res (list cursor) :=
  filter_map enter_only <$> collect preorder_next_i (S (2 * gsize (c_green c))) (preorder_new c).
(** cursor.rs:862-867 [descendants_with_tokens] *)
Definition descendants_with_tokens_i (c : cursor) : res (list cursor) :=
  filter_map enter_only <$> collect preorder_wt_next_i (S (2 * gsize (c_green c))) (preorder_new c).

(** ** Tokens *)
(** cursor.rs:826-828, 1167-1172 [first_token]; recursion bounded by fuel *)
Fixpoint first_token_f_i (fuel : nat) (c : cursor) : res (option cursor) :=
  match fuel with
  | 0 => Err Diverge
  | S fuel' =>
      if c_is_node c then
        o ← first_child_or_token_i c;
        match o with Some el => first_token_f_i fuel' el | None => Ok None end
      else Ok (Some c)
  end.
(** cursor.rs:826-828, 1167-1172 *)
Definition first_token_i (c : cursor) : res (option cursor) := first_token_f_i (gsize (c_green c)) c.
(** cursor.rs:829-831, 1173-1178 [last_token] *)
Fixpoint last_token_f_i (fuel : nat) (c : cursor) : res (option cursor) :=
  match fuel with
  | 0 => Err Diverge
  | S fuel' =>
      if c_is_node c then
        o ← last_child_or_token_i c;
        match o with Some el => last_token_f_i fuel' el | None => Ok None end
      else Ok (Some c)
  end.
(** cursor.rs:829-831, 1173-1178 *)
Definition last_token_i (c : cursor) : res (option cursor) := last_token_f_i (gsize (c_green c)) c.

(** cursor.rs:1088-1096 [next_token] *)
Definition next_token_i (c : cursor) : res (option cursor) :=
  o ← next_sibling_or_token_i c;
  match o with
  | Some element => first_token_i element
  | None =>
      match c_parent c with
      | None => Ok None
      | Some p =>
          o ← ancestors_find_map next_sibling_or_token_i p;
          match o with Some element => first_token_i element | None => Ok None end
      end
  end.
(** cursor.rs:1097-1105 [prev_token] *)
Definition prev_token_i (c : cursor) : res (option cursor) :=
  o ← prev_sibling_or_token_i c;
  match o with
  | Some element => last_token_i element
  | None =>
      match c_parent c with
      | None => Ok None
      | Some p =>
          o ← ancestors_find_map prev_sibling_or_token_i p;
          match o with Some element => last_token_i element | None => Ok None end
      end
  end.

(** [children_with_tokens()] to the end *)
(** cursor.rs:681-683, 1416-1460 *)
Definition children_with_tokens_i (c : cursor) : res (list cursor) :=
  collect element_children_next_i (S (length (gchildren (c_green c)))) (children_new c).
(** cursor.rs:676-678, 1357-1398 *)
Definition children_i (c : cursor) : res (list cursor) :=
  collect node_children_next_i (S (length (gchildren (c_green c)))) (children_new c).

(** cursor.rs:879-914 [SyntaxNode::token_at_offset] and 1260-1266
    [SyntaxElement::token_at_offset] in one function.  The three [next] calls on
    the lazy filter are modelled as a match on the filtered list: the code asks
    for at most three elements, and panics if there is a third. *)
Fixpoint token_at_offset_f_i (fuel : nat) (c : cursor) (offset : N) : res (token_at_offset_t cursor) :=
  match fuel with
  | 0 => Err Diverge
  | S fuel' =>
      range ← c_text_range c;
      _ ← rassert ((rstart range <=? offset)%N && (offset <=? rend range)%N);
      if negb (c_is_node c) then Ok (TaoSingle c) else
      if range_is_empty range then Ok TaoNone else
      cs ← children_with_tokens_i c;
      l ← filter_res (touches offset) cs;
      match l with
      | [] => Err Panic
      | [lft] => token_at_offset_f_i fuel' lft offset
      | [lft; rgt] =>
          tl ← token_at_offset_f_i fuel' lft offset;
          tr ← token_at_offset_f_i fuel' rgt offset;
          match tl, tr with
          | TaoSingle l, TaoSingle r => Ok (TaoBetween l r)
          | _, _ => Err Panic
          end
      | _ => Err Panic
      end
  end.
(** cursor.rs:879-914, 1260-1266 *)
Definition token_at_offset_i (c : cursor) (offset : N) : res (token_at_offset_t cursor) :=
  token_at_offset_f_i (gsize (c_green c)) c offset.

(** cursor.rs:935-940 [child_or_token_at_range] *)
Definition child_or_token_at_range_i (c : cursor) (r : range) : res (option cursor) :=
  rel ← range_sub r (c_offset c);
  match child_at_range (c_green c) rel with
  | Some (index, rel_offset, green) => Some <$> mk_child_i c (index, (rel_offset, green))
  | None => Ok None
  end.
(** cursor.rs:916-933 [covering_element] *)
Fixpoint covering_element_f_i (fuel : nat) (el : cursor) (r : range) : res cursor :=
  match fuel with
  | 0 => Err Diverge
  | S fuel' =>
      tr ← c_text_range el;
      _ ← rassert (contains_range tr r);
      if negb (c_is_node el) then Ok el else
      o ← child_or_token_at_range_i el r;
      match o with Some it => covering_element_f_i fuel' it r | None => Ok el end
  end.
(** cursor.rs:916-933 *)
Definition covering_element_i (c : cursor) (r : range) : res cursor :=
  covering_element_f_i (gsize (c_green c)) c r.
End ix.
