(** * Specification vocabulary

    What a user of the library thinks of: a syntax tree is a rose tree of kinds
    with text at the leaves; an element of it is named by its position, the list
    of child indices leading to it from the root.  No offsets, lengths,
    addresses, caches or cursors.  This file is independent of the model. *)
From Verif Require Export Str.

(** specification: what a user sees of [SyntaxKind], green.rs:20 *)
Definition kind := N.
Bind Scope N_scope with kind.

(** specification: a syntax tree as a user thinks of it *)
Inductive tree :=
| Node (k : kind) (cs : list tree)
| Token (k : kind) (s : str).

(** specification: the kind of an element *)
Definition tkind (t : tree) : kind := match t with Node k _ | Token k _ => k end.
(** specification: the children of an element *)
Definition tchildren (t : tree) : list tree := match t with Node _ cs => cs | Token _ _ => [] end.
(** specification: nodes, not tokens *)
Definition is_node (t : tree) : bool := match t with Node _ _ => true | Token _ _ => false end.
(** specification: tokens, not nodes *)
Definition is_token (t : tree) : bool := negb (is_node t).

(** the text of a tree: its token texts, left to right *)
Fixpoint ttext (t : tree) : str :=
  match t with
  | Token _ s => s
  | Node _ cs => concat (map ttext cs)
  end.

(** ** Positions *)
(** specification: where an element is: the indices on the way to it *)
Definition pos := list nat.

(** the subtree at a position *)
Fixpoint tsub (t : tree) (p : pos) : option tree :=
  match p with
  | [] => Some t
  | i :: p' => match tchildren t !! i with Some c => tsub c p' | None => None end
  end.

(** all the text to the left of a position *)
Fixpoint tbefore (t : tree) (p : pos) : str :=
  match p with
  | [] => []
  | i :: p' =>
      concat (map ttext (take i (tchildren t))) ++
      match tchildren t !! i with Some c => tbefore c p' | None => [] end
  end.

(** the byte range a position occupies in the whole text: [(start, end)] *)
Definition trange (t : tree) (p : pos) : option (N * N) :=
  match tsub t p with
  | Some c => Some (blen (tbefore t p), (blen (tbefore t p) + blen (ttext c))%N)
  | None => None
  end.

(** all positions of a tree in document order (parents before children) *)
Fixpoint positions (t : tree) : list pos :=
  [] :: match t with
        | Token _ _ => []
        | Node _ cs =>
            (fix go (i : nat) (cs : list tree) : list pos :=
               match cs with
               | [] => []
               | c :: cs' => map (cons i) (positions c) ++ go (S i) cs'
               end) 0 cs
        end.

(** positions of the tokens, in document order *)
Definition token_positions (t : tree) : list pos :=
  filter_map (fun p => match tsub t p with Some (Token _ _) => Some p | _ => None end) (positions t).

(** replace the subtree at a position *)
Fixpoint treplace (t : tree) (p : pos) (new : tree) {struct p} : tree :=
  match p with
  | [] => new
  | i :: p' =>
      match t with
      | Token _ _ => t
      | Node k cs => Node k (alter (fun c => treplace c p' new) i cs)
      end
  end.

(** ** Walks *)
(** specification: entering or leaving an element *)
Inductive wevent (A : Type) := Enter (a : A) | Leave (a : A).
Arguments Enter {_} _.
Arguments Leave {_} _.
(** specification: the same event on other elements *)
Definition wmap {A B} (f : A -> B) (e : wevent A) : wevent B :=
  match e with Enter a => Enter (f a) | Leave a => Leave (f a) end.
(** specification: the element of an event *)
Definition wget {A} (e : wevent A) : A := match e with Enter a | Leave a => a end.

(** the walk over all elements of a tree: enter an element, walk its children, leave it *)
Fixpoint twalk (t : tree) : list (wevent pos) :=
  Enter [] ::
  match t with
  | Token _ _ => []
  | Node _ cs =>
      (fix go (i : nat) (cs : list tree) : list (wevent pos) :=
         match cs with
         | [] => []
         | c :: cs' => map (wmap (cons i)) (twalk c) ++ go (S i) cs'
         end) 0 cs
  end ++ [Leave []].

(** the walk over the nodes only *)
Fixpoint twalk_nodes (t : tree) : list (wevent pos) :=
  match t with
  | Token _ _ => []
  | Node _ cs =>
      Enter [] ::
      (fix go (i : nat) (cs : list tree) : list (wevent pos) :=
         match cs with
         | [] => []
         | c :: cs' => map (wmap (cons i)) (twalk_nodes c) ++ go (S i) cs'
         end) 0 cs ++ [Leave []]
  end.

(** ** Strings: [m] is what lies between bytes [a] and [b] of [s] *)
(** specification: one text inside another *)
Definition is_slice (s : str) (a b : N) (m : str) : Prop :=
  exists p q, s = p ++ m ++ q /\ blen p = a /\ (blen p + blen m)%N = b.

(** range [(a,b)] contains range [(c,d)] *)
Definition range_contains (r1 r2 : N * N) : Prop := (r1.1 <= r2.1 /\ r2.2 <= r1.2)%N.

(** [p] is an ancestor of (or equal to) [q] *)
Definition ancestor_or_self (p q : pos) : Prop := exists r, q = p ++ r.

(** specification: the limit of [TextSize] *)
Definition u32_max : N := 4294967295%N.
(** specification: the limit of [usize] *)
Definition usize_max : N := 18446744073709551615%N.

(** a tree none of whose nodes is without tokens *)
Fixpoint no_empty_nodes (t : tree) : Prop :=
  match t with
  | Token _ _ => True
  | Node _ cs => cs <> [] /\ (fix go cs := match cs with [] => True | c :: cs' => no_empty_nodes c /\ go cs' end) cs
  end.

(** ** Nearest element of a list satisfying a condition *)
(** [o] is the first index >= [lo] whose element satisfies [P] *)
Definition is_first_from {A} (P : A -> bool) (l : list A) (lo : nat) (o : option nat) : Prop :=
  match o with
  | Some j => lo <= j /\ (exists x, l !! j = Some x /\ P x = true) /\
              (forall k x, lo <= k < j -> l !! k = Some x -> P x = false)
  | None => forall k x, lo <= k -> l !! k = Some x -> P x = false
  end.
(** [o] is the last index < [hi] whose element satisfies [P] *)
Definition is_last_below {A} (P : A -> bool) (l : list A) (hi : nat) (o : option nat) : Prop :=
  match o with
  | Some j => j < hi /\ (exists x, l !! j = Some x /\ P x = true) /\
              (forall k x, j < k < hi -> l !! k = Some x -> P x = false)
  | None => forall k x, k < hi -> l !! k = Some x -> P x = false
  end.
(** specification: every element *)
Definition any {A} (x : A) : bool := true.

(** the indices >= [lo] of the elements satisfying [P], ascending *)
Fixpoint sel_go {A} (P : A -> bool) (i : nat) (l : list A) : list nat :=
  match l with
  | [] => []
  | x :: l' => if P x then i :: sel_go P (S i) l' else sel_go P (S i) l'
  end.
(** specification: the children from index [i] on that satisfy [f] *)
Definition sel_from {A} (P : A -> bool) (l : list A) (lo : nat) : list nat := sel_go P lo (drop lo l).
(** the indices < [hi] of the elements satisfying [P], descending *)
Definition sel_below {A} (P : A -> bool) (l : list A) (hi : nat) : list nat := rev (sel_go P 0 (take hi l)).

(** the walk over the elements selected by [sel] in which the children of the
    elements chosen by [prune] are skipped *)
Fixpoint twalk_pruned (sel : tree -> bool) (prune : pos -> bool) (t : tree) : list (wevent pos) :=
  Enter [] ::
  (if prune [] then [] else
   match t with
   | Token _ _ => []
   | Node _ cs =>
       (fix go (i : nat) (cs : list tree) : list (wevent pos) :=
          match cs with
          | [] => []
          | c :: cs' =>
              (if sel c then map (wmap (cons i)) (twalk_pruned sel (fun q => prune (i :: q)) c) else []) ++ go (S i) cs'
          end) 0 cs
   end) ++ [Leave []].

(** number of elements of a tree *)
Fixpoint tsize (t : tree) : nat :=
  match t with Token _ _ => 1 | Node _ cs => S (sum_list (map tsize cs)) end.

(** the token reached by always taking the first (last) child, if any *)
Fixpoint leftmost (t : tree) : option pos :=
  match t with
  | Token _ _ => Some []
  | Node _ cs => match cs with [] => None | c :: _ => cons 0 <$> leftmost c end
  end.
(** specification: the last token below *)
Fixpoint rightmost (t : tree) : option pos :=
  match t with
  | Token _ _ => Some []
  | Node _ cs =>
      (fix go (i : nat) (cs : list tree) : option pos :=
         match cs with
         | [] => None
         | c :: cs' => match cs' with [] => cons i <$> rightmost c | _ :: _ => go (S i) cs' end
         end) 0 cs
  end.
(** the nearest following (preceding) sibling of an element or of one of its ancestors *)
Fixpoint up_next (t : tree) (p : pos) : option pos :=
  match p with
  | [] => None
  | i :: p' =>
      match tchildren t !! i ≫= fun c => up_next c p' with
      | Some q => Some (i :: q)
      | None => if S i <? length (tchildren t) then Some [S i] else None
      end
  end.
(** specification: the previous subtree in document order *)
Fixpoint up_prev (t : tree) (p : pos) : option pos :=
  match p with
  | [] => None
  | i :: p' =>
      match tchildren t !! i ≫= fun c => up_prev c p' with
      | Some q => Some (i :: q)
      | None => match i with 0 => None | S j => Some [j] end
      end
  end.

(** does the token at position [q] of [t] have non-empty text and touch byte offset [x]? *)
Definition touching (t : tree) (x : N) (q : pos) : bool :=
  match trange t q with
  | Some (a, b) => (a <? b)%N && (a <=? x)%N && (x <=? b)%N
  | None => false
  end.

(** the tokens of a tree (or of the subtree at [p]) with non-empty text that touch byte
    offset [x] of the whole text, left to right *)
Definition touching_tokens (t : tree) (p : pos) (x : N) : list pos :=
  match tsub t p with
  | Some s => List.filter (fun q => touching t x (p ++ q)) (token_positions s)
  | None => []
  end.

(** ** Locations: a kind and a byte range *)
(** the children of the element at [p] whose range contains [(a, e)] *)
Definition child_covers (t : tree) (p : pos) (a e : N) (i : nat) : Prop :=
  exists ra, trange t (p ++ [i]) = Some ra /\ range_contains ra (a, e).
(** specification: the element at [p] ends at [a] *)
Definition ends_at (t : tree) (p : pos) (a : N) : Prop := exists ra, trange t p = Some ra /\ ra.2 = a.
(** the child by which a search for [(a, e)] descends from [p]: one that covers the
    range; where several do, the last of those that end at [a] *)
Definition descends (t : tree) (p : pos) (a e : N) (i : nat) : Prop :=
  child_covers t p a e i /\
  (forall j, child_covers t p a e j -> ends_at t (p ++ [j]) a -> ends_at t (p ++ [i]) a /\ j <= i).
(** the nodes passed by that search *)
Inductive search_path (t : tree) (a e : N) : pos -> Prop :=
| sp_root : search_path t a e []
| sp_child p i : search_path t a e p -> descends t p a e i ->
    (exists s, tsub t (p ++ [i]) = Some s /\ is_node s = true) -> search_path t a e (p ++ [i]).
(** is there a node whose kind satisfies [K] with range [(a, e)] at [p]? *)
Definition located (t : tree) (K : kind -> Prop) (a e : N) (p : pos) : Prop :=
  trange t p = Some (a, e) /\ exists s, tsub t p = Some s /\ is_node s = true /\ K (tkind s).
(** specification: strictly above *)
Definition proper_ancestor (p q : pos) : Prop := exists i r, q = p ++ i :: r.
