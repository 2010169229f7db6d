(** * Client programs: what they must observe (specification)

    A client holds handles ([SyntaxNode], [SyntaxToken], [SyntaxElement]) in numbered
    slots and green elements in another set of numbered slots.  Here every handle is a
    tree number and a position in that tree; trees do not share anything. *)
From Verif Require Export Forest.

(** the navigation methods of cursor.rs that answer with one handle *)
(** cursor.rs:666-668, 685-759, 796-824, 1052-1074, 1151-1258 *)
Inductive nav :=
| NParent
| NFirstChild | NLastChild | NFirstChildByKind (m : kind -> bool)
| NFirstChildOrToken | NLastChildOrToken | NFirstChildOrTokenByKind (m : kind -> bool)
| NNextSibling | NPrevSibling | NNextSiblingByKind (m : kind -> bool)
| NNextSiblingOrToken | NPrevSiblingOrToken | NNextSiblingOrTokenByKind (m : kind -> bool).

(** green/token.rs:112-116, green/node.rs:159-184, 203-232, cursor.rs:150-187, 553-593, 653-659, 685-824, 935-973 *)
Inductive op :=
| OGreenToken (k : kind) (s : str)            (* GreenToken::new *)
| OGreenNode (k : kind) (els : list nat)      (* GreenNode::new on clones *)
| OGreenDrop (g : nat)
| ORoot (mut : bool) (g : nat)                (* SyntaxNode::new_root / new_root_mut on a clone *)
| OGreen (s : nat)                            (* green().to_owned() *)
| OClone (s : nat)
| ODrop (s : nat)
| ONav (n : nav) (s : nat)
| OToNext (tok : bool) (s : nat)              (* to_next_sibling / to_next_sibling_or_token *)
| OCloneForUpdate (s : nat)
| OCloneSubtree (s : nat)
| ODetach (s : nat)
| OSplice (s a b : nat) (ins : list nat)      (* splice_children(a..b, ins) *)
| ODetachKids (tok : bool) (s : nat)           (* for c in s.children[_with_tokens]() { c.detach() } *)
| ODetachByKind (tok : bool) (m : kind -> bool) (s : nat)  (* the same with .by_kind(m) *)
| OLook (s : nat)
| OAtRange (a b : N) (s : nat)                (* child_or_token_at_range(a..b) *)
| OGreenSplice (a b : nat) (els : list nat) (g : nat)  (* GreenNodeData::splice_children(a..b, clones) *)
| OGreenReplace (i e g : nat)                 (* GreenNodeData::replace_child(i, clone) *)
| OGreenChild (i g : nat)                     (* children().nth(i).unwrap().to_owned() *)
| OGreenLook (g : nat).                       (* kind(), text_len() and all below *)

(** what [OLook] shows: is_mutable, parent().map(|_| index()), kind, text_range and all
    below the element *)
(** specification: cursor.rs:341-374, 576-578 and all below *)
Record look := Look { l_mut : bool; l_index : option nat; l_kind : kind; l_range : N * N; l_tree : tree }.
(** specification: what a call shows *)
Definition obs := option look.

(** [SOk]: returns; [SPanic]: panics; [SStuck]: does not return (it panics or runs
    forever); [SIll]: not a program (type error, moved or empty variable) *)
Inductive sres (A : Type) := SOk (a : A) | SPanic | SStuck | SIll.
Arguments SOk {A}. Arguments SPanic {A}. Arguments SStuck {A}. Arguments SIll {A}.
(** specification: running one specified call after another *)
#[global] Instance sres_bind : MBind sres := fun A B f m =>
  match m with SOk a => f a | SPanic => SPanic | SStuck => SStuck | SIll => SIll end.
(** specification: the program must make sense *)
Definition ill_unless (b : bool) : sres unit := if b then SOk () else SIll.
(** specification: the call panics unless *)
Definition panic_unless (b : bool) : sres unit := if b then SOk () else SPanic.
(** specification: the contents of a variable *)
Definition of_slot {A} (o : option (option A)) : sres A := match o with Some (Some a) => SOk a | _ => SIll end.

(** specification: trees, variables and trees kept alive for ever *)
Record sst := SS {
  s_trees : list (bool * tree);           (* all trees ever made; mutable? *)
  s_handles : list (option (nat * pos));
  s_greens : list (option tree);
  s_leaked : list nat }.                  (* trees kept alive by a forgotten handle *)
Definition s_init : sst := SS [] [] [] [].

(** specification: a new variable *)
Definition add_handle (o : option (nat * pos)) (st : sst) : sst :=
  SS (s_trees st) (s_handles st ++ [o]) (s_greens st) (s_leaked st).
(** specification: a variable is used up *)
Definition del_handle (s : nat) (st : sst) : sst :=
  SS (s_trees st) (<[s:=None]> (s_handles st)) (s_greens st) (s_leaked st).
(** specification: a new variable *)
Definition add_green (t : tree) (st : sst) : sst :=
  SS (s_trees st) (s_handles st) (s_greens st ++ [Some t]) (s_leaked st).
(** specification: a new tree *)
Definition add_tree (m : bool) (t : tree) (st : sst) : sst :=
  SS (s_trees st ++ [(m, t)]) (s_handles st) (s_greens st) (s_leaked st).
(** the element a handle stands for *)
Definition s_elem (st : sst) (h : nat * pos) : sres (bool * tree) :=
  match s_trees st !! h.1 with
  | Some (m, t) => match tsub t h.2 with Some x => SOk (m, x) | None => SIll end
  | None => SIll
  end.

(** ** Navigation *)
(** specification: from a node to one of its children *)
Definition down (t : tree) (p : pos) (f : list tree -> option nat) : sres (option pos) :=
  match tsub t p with
  | Some (Node _ cs) => SOk ((fun i => p ++ [i]) <$> f cs)
  | _ => SIll
  end.
(** specification: from an element to a sibling *)
Definition sideways (t : tree) (p : pos) (f : list tree -> nat -> option nat) : option pos :=
  match last p with
  | Some i => match tsub t (removelast p) with
              | Some x => (fun j => removelast p ++ [j]) <$> f (tchildren x) i
              | None => None end
  | None => None
  end.
(** specification: the first child from [i] on that satisfies [f] *)
Definition first_at {A} (P : A -> bool) (l : list A) (lo : nat) : option nat := head (sel_from P l lo).
(** specification: the last child before [i] that satisfies [f] *)
Definition last_at {A} (P : A -> bool) (l : list A) (hi : nat) : option nat := head (sel_below P l hi).
(** specification: elements of certain kinds *)
Definition by_kind (m : kind -> bool) (t : tree) : bool := m (tkind t).
(** specification: nodes of certain kinds *)
Definition node_by_kind (m : kind -> bool) (t : tree) : bool := m (tkind t) && is_node t.
(** specification: only nodes have it *)
Definition for_node (t : tree) (p : pos) (o : option pos) : sres (option pos) :=
  match tsub t p with Some (Node _ _) => SOk o | _ => SIll end.
(** specification of cursor.rs:376-455, 666-668, 685-759 *)
Definition s_nav (n : nav) (t : tree) (p : pos) : sres (option pos) :=
  match n with
  | NParent => SOk (match p with [] => None | _ => Some (removelast p) end)
  | NFirstChild => down t p (fun cs => first_at is_node cs 0)
  | NLastChild => down t p (fun cs => last_at is_node cs (length cs))
  | NFirstChildByKind m => down t p (fun cs => first_at (node_by_kind m) cs 0)
  | NFirstChildOrToken => down t p (fun cs => first_at any cs 0)
  | NLastChildOrToken => down t p (fun cs => last_at any cs (length cs))
  | NFirstChildOrTokenByKind m => down t p (fun cs => first_at (by_kind m) cs 0)
  | NNextSibling => for_node t p (sideways t p (fun cs i => first_at is_node cs (S i)))
  | NPrevSibling => for_node t p (sideways t p (fun cs i => last_at is_node cs i))
  | NNextSiblingByKind m => for_node t p (sideways t p (fun cs i => first_at (node_by_kind m) cs (S i)))
  | NNextSiblingOrToken => SOk (sideways t p (fun cs i => first_at any cs (S i)))
  | NPrevSiblingOrToken => SOk (sideways t p (fun cs i => last_at any cs i))
  | NNextSiblingOrTokenByKind m => SOk (sideways t p (fun cs i => first_at (by_kind m) cs (S i)))
  end.

(** where child [i] starts, counted from the start of its parent *)
Definition kid_start (cs : list tree) (i : nat) : N := blen (concat (map ttext (take i cs))).
(** the child found for the range [a..b], counted from the start of the parent: of the
    children that cover it the last one that ends at [a], or the first if none does *)
(** specification of cursor.rs:935-940, green/node.rs:142-156 *)
Definition at_range (cs : list tree) (a b : N) : option nat :=
  let js := List.filter (fun i => (kid_start cs i <=? a)%N && (b <=? kid_start cs (S i))%N) (seq 0 (length cs)) in
  match last (List.filter (fun i => (kid_start cs (S i) =? a)%N) js) with Some i => Some i | None => head js end.

(** ** Mutation *)
(** specification: every variable stands for an element at its new place *)
Definition move_handles (f : nat * pos -> nat * pos) (l : list (option (nat * pos))) : list (option (nat * pos)) := map (fmap f) l.
(** the element at [p ++ [i]] of tree [n] becomes the new tree number [new] *)
Definition detach_handle (n new : nat) (p : pos) (i : nat) (h : nat * pos) : nat * pos :=
  if h.1 =? n then match pos_removed p i h.2 with inl s => (new, s) | inr s => (n, s) end else h.
(** detach the element [h]; mutable trees only; the root stays where it is *)
(** specification of cursor.rs:457-490 *)
Definition s_detach (h : nat * pos) (st : sst) : sres sst :=
  match s_trees st !! h.1 with
  | Some (m, t) =>
      _ ← panic_unless m;
      match last h.2 with
      | None => SOk st
      | Some i =>
          let p := removelast h.2 in
          match tsub t h.2 with
          | Some x => SOk (SS (<[h.1:=(m, tdelete_child t p i)]> (s_trees st) ++ [(true, x)])
                              (move_handles (detach_handle h.1 (length (s_trees st)) p i) (s_handles st))
                              (s_greens st) (s_leaked st))
          | None => SIll
          end
      end
  | None => SIll
  end.
(** all of tree [c] becomes child [i] of the node at [p] of tree [n] *)
Definition attach_handle (n c : nat) (p : pos) (i : nat) (h : nat * pos) : nat * pos :=
  if h.1 =? n then (n, pos_inserted p i h.2) else if h.1 =? c then (n, p ++ i :: h.2) else h.
(** specification of cursor.rs:491-523, 965-973 *)
Definition s_attach_root (n : nat) (p : pos) (i c : nat) (st : sst) : sres sst :=
  match s_trees st !! n, s_trees st !! c with
  | Some (m, t), Some (mc, tc) =>
      match tsub t p with
      | Some (Node _ cs) =>
          if n =? c then SStuck
          else
            let t' := tinsert_child t p i tc in
            _ ← panic_unless ((i <=? length cs) && (blen (ttext t') <=? u32_max)%N);
            SOk (SS (<[n:=(m, t')]> (s_trees st)) (move_handles (attach_handle n c p i) (s_handles st))
                    (s_greens st) (s_leaked st))
      | _ => SIll
      end
  | _, _ => SIll
  end.
(** the handles in slots [s] (the parent) and [c] (the child, used up) *)
(** specification of cursor.rs:491-523, 965-973 *)
Definition s_attach (s i c : nat) (st : sst) : sres sst :=
  h ← of_slot (A:=nat * pos) (s_handles st !! s);
  '(m, _) ← s_elem st h;
  _ ← panic_unless m;
  hc ← of_slot (A:=nat * pos) (s_handles st !! c);
  st ← s_detach hc st;
  h ← of_slot (A:=nat * pos) (s_handles st !! s);
  hc ← of_slot (A:=nat * pos) (s_handles st !! c);
  st ← s_attach_root h.1 h.2 i hc.1 st;
  SOk (del_handle c st).
(** specification of the loop cursor.rs:954-957 *)
Fixpoint s_attach_all (s i : nat) (ins : list nat) (st : sst) : sres sst :=
  match ins with
  | [] => SOk st
  | c :: ins' => _ ← ill_unless (negb (c =? s)); st ← s_attach s i c st; s_attach_all s (S i) ins' st
  end.
(** [splice_children] as it is: of the children in the range only the first goes *)
(** specification of cursor.rs:942-958 *)
Definition s_splice (s a b : nat) (ins : list nat) (st : sst) : sres sst :=
  h ← of_slot (A:=nat * pos) (s_handles st !! s);
  '(m, x) ← s_elem st h;
  _ ← ill_unless (is_node x && forallb (fun c => bool_decide (is_Some (mjoin (s_handles st !! c)))) ins);
  _ ← panic_unless m;
  st ← (if (a <? b) && (a <? length (tchildren x)) then s_detach (h.1, h.2 ++ [a]) st else SOk st);
  s_attach_all s a ins st.

(** the children that a loop over them would visit *)
Definition kid_sel (tok : bool) : tree -> bool := if tok then any else is_node.
(** specification: the children that a loop with [by_kind] visits *)
Definition kid_sel_kind (tok : bool) (m : kind -> bool) : tree -> bool := if tok then by_kind m else node_by_kind m.
(** detach the first child that satisfies [f]; [None] if there is none *)
Definition s_detach_first (f : tree -> bool) (h : nat * pos) (st : sst) : sres (option sst) :=
  '(_, x) ← s_elem st h;
  _ ← ill_unless (is_node x);
  match first_at f (tchildren x) 0 with
  | Some j => st ← s_detach (h.1, h.2 ++ [j]) st; SOk (Some st)
  | None => SOk None
  end.
(** detaching in a loop over [children()] as it is: only the first child goes *)
(** specification of a client loop over cursor.rs:1386-1475 *)
Definition s_detach_kids (tok : bool) (s : nat) (st : sst) : sres sst :=
  h ← of_slot (A:=nat * pos) (s_handles st !! s);
  o ← s_detach_first (kid_sel tok) h st;
  SOk (default st o).
(** detaching in a loop over [children().by_kind(m)]: all of them go *)
Fixpoint s_detach_all (fuel : nat) (f : tree -> bool) (h : nat * pos) (st : sst) : sres sst :=
  match fuel with
  | 0 => SOk st
  | S fuel' => o ← s_detach_first f h st; match o with Some st => s_detach_all fuel' f h st | None => SOk st end
  end.
(** specification of a client loop over cursor.rs:1386-1475 *)
Definition s_detach_by_kind (tok : bool) (m : kind -> bool) (s : nat) (st : sst) : sres sst :=
  h ← of_slot (A:=nat * pos) (s_handles st !! s);
  '(_, x) ← s_elem st h;
  s_detach_all (S (length (tchildren x))) (kid_sel_kind tok m) h st.

(** ** One step *)
(** specification of cursor.rs:341-374 *)
Definition s_look (st : sst) (h : nat * pos) : sres look :=
  match s_trees st !! h.1 with
  | Some (m, t) => match tsub t h.2, trange t h.2 with
                   | Some x, Some r => SOk (Look m (last h.2) (tkind x) r x)
                   | _, _ => SIll end
  | None => SIll
  end.
(** specification of cursor.rs:341-374 *)
Definition s_range (st : sst) (h : nat * pos) : sres (N * N) :=
  match s_trees st !! h.1 with
  | Some (_, t) => match trange t h.2 with Some r => SOk r | None => SIll end
  | None => SIll
  end.
(** specification: other variables hold elements of this tree *)
Definition others_in (n s : nat) (st : sst) : bool :=
  existsb (fun o : option (nat * pos) => match o with Some h => h.1 =? n | None => false end) (<[s:=None]> (s_handles st)).

(** specification of every call *)
Definition s_step (o : op) (st : sst) : sres (sst * obs) :=
  match o with
  | OGreenToken k s => _ ← ill_unless (blen s <=? u32_max)%N; SOk (add_green (Token k s) st, None)
  | OGreenNode k els =>
      match mapM (fun g => mjoin (s_greens st !! g)) els with
      | Some ts => _ ← panic_unless (blen (ttext (Node k ts)) <=? u32_max)%N; SOk (add_green (Node k ts) st, None)
      | None => SIll
      end
  | OGreenDrop g =>
      _ ← of_slot (s_greens st !! g);
      SOk (SS (s_trees st) (s_handles st) (<[g:=None]> (s_greens st)) (s_leaked st), None)
  | ORoot m g =>
      t ← of_slot (s_greens st !! g);
      _ ← ill_unless (is_node t);
      SOk (add_handle (Some (length (s_trees st), [])) (add_tree m t st), None)
  | OGreen s =>
      h ← of_slot (A:=nat * pos) (s_handles st !! s);
      '(_, x) ← s_elem st h;
      SOk (add_green x st, None)
  | OClone s => h ← of_slot (A:=nat * pos) (s_handles st !! s); SOk (add_handle (Some h) st, None)
  | ODrop s => _ ← of_slot (A:=nat * pos) (s_handles st !! s); SOk (del_handle s st, None)
  | ONav n s =>
      h ← of_slot (A:=nat * pos) (s_handles st !! s);
      match s_trees st !! h.1 with
      | Some (_, t) => o ← s_nav n t h.2; SOk (add_handle (pair h.1 <$> o) st, None)
      | None => SIll
      end
  | OToNext tok s =>
      h ← of_slot (A:=nat * pos) (s_handles st !! s);
      match s_trees st !! h.1 with
      | Some (m, t) =>
          o ← s_nav (if tok then NNextSiblingOrToken else NNextSibling) t h.2;
          let leak := negb m && bool_decide (h.2 = []) && negb (others_in h.1 s st) in
          let st := add_handle (pair h.1 <$> o) (del_handle s st) in
          SOk (if leak then SS (s_trees st) (s_handles st) (s_greens st) (h.1 :: s_leaked st) else st, None)
      | None => SIll
      end
  | OCloneForUpdate s =>
      h ← of_slot (A:=nat * pos) (s_handles st !! s);
      '(m, x) ← s_elem st h;
      _ ← ill_unless (is_node x);
      _ ← panic_unless (negb m);
      match s_trees st !! h.1 with
      | Some (_, t) => SOk (add_handle (Some (length (s_trees st), h.2)) (add_tree true t st), None)
      | None => SIll
      end
  | OCloneSubtree s =>
      h ← of_slot (A:=nat * pos) (s_handles st !! s);
      '(_, x) ← s_elem st h;
      _ ← ill_unless (is_node x);
      SOk (add_handle (Some (length (s_trees st), [])) (add_tree false x st), None)
  | ODetach s => h ← of_slot (A:=nat * pos) (s_handles st !! s); st ← s_detach h st; SOk (st, None)
  | OSplice s a b ins => st ← s_splice s a b ins st; SOk (st, None)
  | ODetachKids tok s => st ← s_detach_kids tok s st; SOk (st, None)
  | ODetachByKind tok m s => st ← s_detach_by_kind tok m s st; SOk (st, None)
  | OLook s => h ← of_slot (A:=nat * pos) (s_handles st !! s); l ← s_look st h; SOk (st, Some l)
  | OAtRange a b s =>
      h ← of_slot (A:=nat * pos) (s_handles st !! s);
      '(_, x) ← s_elem st h;
      _ ← ill_unless (is_node x && (a <=? b)%N);
      '(o, _) ← s_range st h;
      _ ← panic_unless (o <=? a)%N;
      SOk (add_handle ((fun i => (h.1, h.2 ++ [i])) <$> at_range (tchildren x) (a - o) (b - o)) st, None)
  | OGreenSplice a b els g =>
      t ← of_slot (s_greens st !! g);
      _ ← ill_unless (is_node t);
      match mapM (fun g => mjoin (s_greens st !! g)) els with
      | Some ts =>
          let t' := Node (tkind t) (take a (tchildren t) ++ ts ++ drop b (tchildren t)) in
          _ ← panic_unless ((a <=? b) && (b <=? length (tchildren t)));
          _ ← panic_unless (blen (ttext t') <=? u32_max)%N;
          SOk (add_green t' st, None)
      | None => SIll
      end
  | OGreenReplace i e g =>
      t ← of_slot (s_greens st !! g);
      _ ← ill_unless (is_node t);
      x ← of_slot (s_greens st !! e);
      let t' := Node (tkind t) (<[i:=x]> (tchildren t)) in
      _ ← panic_unless (blen (ttext t') <=? u32_max)%N;
      SOk (add_green t' st, None)
  | OGreenChild i g =>
      t ← of_slot (s_greens st !! g);
      _ ← ill_unless (is_node t);
      match tchildren t !! i with Some x => SOk (add_green x st, None) | None => SPanic end
  | OGreenLook g => t ← of_slot (s_greens st !! g); SOk (st, Some (Look false None (tkind t) (0%N, blen (ttext t)) t))
  end.
(** specification of a list of calls *)
Fixpoint s_run (prog : list op) (st : sst) : sres (sst * list obs) :=
  match prog with
  | [] => SOk (st, [])
  | o :: prog' => '(st, x) ← s_step o st; '(st, xs) ← s_run prog' st; SOk (st, x :: xs)
  end.
