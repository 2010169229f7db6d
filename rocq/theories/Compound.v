(** * The compound methods of cursor.rs as programs on handles

    Clones and drops are written out as in the code.  [p_look] is also used where the code
    matches on [NodeOrToken] or reads [kind()] or [text_range()]; it changes nothing.
    Loops and recursion run on fuel. *)
From Verif Require Export Tracks.

(** std [Option::clone], used at cursor.rs:1390-1396, 1452-1458 *)
Definition p_clone_opt (o : option nat) : script (option nat) :=
  match o with Some s => c ← p_clone s; PRet (Some c) | None => PRet None end.
(** drop of an [Option] of a handle *)
Definition p_drop_opt (o : option nat) : script unit := match o with Some s => p_drop s | None => PRet () end.
(** [assert!], used at cursor.rs:884-889, 919-924 *)
Definition p_assert (b : bool) : script unit := if b then PRet () else PPanic.

(** ** Iterators *)
(** the [Iterator] implementations cursor.rs:1386-1584: state and [next] *)
Definition p_iter S A := S -> script (option A * S).
(** run to the end, keeping the items *)
(** std; the iterator is dropped at the end *)
Fixpoint p_collect {S A} (next : p_iter S A) (drop : S -> script unit) (fuel : nat) (it : S) : script (list A) :=
  match fuel with
  | 0 => PDiverge
  | S fuel' =>
      '(o, it) ← next it;
      match o with
      | None => _ ← drop it; PRet []
      | Some a => l ← p_collect next drop fuel' it; PRet (a :: l)
      end
  end.

(** cursor.rs:1357-1361, 1416-1420 *)
Record kids := KI { ki_parent : nat; ki_next : option nat; ki_init : bool }.
(** cursor.rs:676-683, 1364-1366, 1423-1425 *)
Definition p_kids_new (s : nat) : script kids := c ← p_clone s; PRet (KI c None false).
(** cursor.rs:1386-1398, 1448-1460 *)
Definition p_kids_next (tok : bool) : p_iter kids nat := fun it =>
  nx ← (if negb (ki_init it) then p_nav (if tok then NFirstChildOrToken else NFirstChild) (ki_parent it)
        else match ki_next it with Some s => p_to_next tok s | None => PRet None end);
  r ← p_clone_opt nx;
  PRet (r, KI (ki_parent it) nx true).
(** drop of the two fields, cursor.rs:1357-1361, 1416-1420 *)
Definition p_kids_drop (it : kids) : script unit := _ ← p_drop (ki_parent it); p_drop_opt (ki_next it).
(** cursor.rs:1368-1383, 1427-1445 [by_kind] *)
Definition p_by_kind (tok : bool) (f : kind -> bool) (it : kids) : script (option nat) :=
  if negb (ki_init it) then
    nx ← p_nav (if tok then NFirstChildOrTokenByKind f else NFirstChildByKind f) (ki_parent it);
    _ ← p_kids_drop it; PRet nx
  else
    match ki_next it with
    | Some s =>
        l ← p_look s;
        if f (l_kind l) then _ ← p_drop (ki_parent it); PRet (Some s)
        else
          nx ← p_nav (if tok then NNextSiblingOrTokenByKind f else NNextSiblingByKind f) s;
          _ ← p_kids_drop it; PRet nx
    | None => _ ← p_drop (ki_parent it); PRet None
    end.
(** [iter::successors] (std) and the shape of cursor.rs:1406-1413, 1468-1475 *)
Definition p_succ_next (succ : nat -> script (option nat)) : p_iter (option nat) nat := fun st =>
  match st with
  | None => PRet (None, None)
  | Some item => nx ← succ item; PRet (Some item, nx)
  end.
(** std [iter::successors] used up, as by the clients of cursor.rs:671-673, 834-851 *)
Definition p_successors (succ : nat -> script (option nat)) (fuel : nat) (o : option nat) : script (list nat) :=
  p_collect (p_succ_next succ) p_drop_opt fuel o.

(** cursor.rs:674-682 to the end *)
Definition p_children (tok : bool) (fuel : nat) (s : nat) : script (list nat) :=
  it ← p_kids_new s; p_collect (p_kids_next tok) p_kids_drop fuel it.
(** [children().by_kind(f)] to the end *)
(** cursor.rs:1368-1383, 1406-1413, 1427-1445, 1468-1475 *)
Definition p_children_by_kind (tok : bool) (f : kind -> bool) (fuel : nat) (s : nat) : script (list nat) :=
  it ← p_kids_new s;
  nx ← p_by_kind tok f it;
  p_successors (p_nav (if tok then NNextSiblingOrTokenByKind f else NNextSiblingByKind f)) fuel nx.
(** cursor.rs:671-673, 1057-1059, 1159-1165 [ancestors] *)
Definition p_ancestors_new (s : nat) : script (option nat) :=
  l ← p_look s;
  if is_node (l_tree l) then c ← p_clone s; PRet (Some c) else p_nav NParent s.
(** cursor.rs:671-673, 1057-1059, 1159-1165, to the end *)
Definition p_ancestors (fuel : nat) (s : nat) : script (list nat) :=
  o ← p_ancestors_new s; p_successors (p_nav NParent) fuel o.
(** cursor.rs:833-839 [siblings], 841-851, 1076-1086 [siblings_with_tokens] *)
Definition sib_nav (tok : bool) (d : direction) : nav :=
  match tok, d with
  | false, Next => NNextSibling | false, Prev => NPrevSibling
  | true, Next => NNextSiblingOrToken | true, Prev => NPrevSiblingOrToken
  end.
(** cursor.rs:834-851, 1077-1086, to the end *)
Definition p_siblings (tok : bool) (d : direction) (fuel : nat) (s : nat) : script (list nat) :=
  c ← p_clone s; p_successors (p_nav (sib_nav tok d)) fuel (Some c).

(** ** Preorder: cursor.rs:1477-1584; [tok]: the variant with tokens *)
(** cursor.rs:1477-1481, 1532-1536 *)
Record walk := WK { wk_start : nat; wk_next : option (wevent nat); wk_skip : bool }.
(** helper: the handle in an event *)
Definition ev_slot {A} (e : wevent A) : A := match e with Enter a | Leave a => a end.
(** cursor.rs:869-877, 1484-1487, 1539-1542 *)
Definition p_walk_new (s : nat) : script walk := start ← p_clone s; c ← p_clone start; PRet (WK start (Some (Enter c)) false).
(** cursor.rs:1489-1491, 1544-1546 *)
Definition p_skip_subtree (w : walk) : walk := WK (wk_start w) (wk_next w) true.
(** cursor.rs:1493-1499, 1548-1554 *)
Definition p_do_skip (next : option (wevent nat)) : script (option (wevent nat)) :=
  match next with
  | None => PRet None
  | Some (Enter first_child) =>
      o ← p_nav NParent first_child;
      match o with
      | Some p => _ ← p_drop first_child; PRet (Some (Leave p))
      | None => PPanic
      end
  | Some (Leave parent) => PRet (Some (Leave parent))
  end.
(** cursor.rs:1511-1527, 1566-1581 *)
Definition p_walk_succ (tok : bool) (start : nat) (e : wevent nat) : script (option (wevent nat)) :=
  match e with
  | Enter s =>
      l ← p_look s;
      if is_node (l_tree l) then
        fc ← p_nav (if tok then NFirstChildOrToken else NFirstChild) s;
        match fc with
        | Some child => PRet (Some (Enter child))
        | None => c ← p_clone s; PRet (Some (Leave c))
        end
      else c ← p_clone s; PRet (Some (Leave c))
  | Leave s =>
      b ← p_eq s start;
      if b : bool then PRet None else
      ns ← p_nav (if tok then NNextSiblingOrToken else NNextSibling) s;
      match ns with
      | Some sibling => PRet (Some (Enter sibling))
      | None => p ← p_nav NParent s; PRet (match p with Some p => Some (Leave p) | None => None end)
      end
  end.
(** cursor.rs:1505-1530, 1560-1584 *)
Definition p_walk_next (tok : bool) : p_iter walk (wevent nat) := fun w =>
  next ← (if wk_skip w then p_do_skip (wk_next w) else PRet (wk_next w));
  match next with
  | None => PRet (None, WK (wk_start w) None false)
  | Some e => nx ← p_walk_succ tok (wk_start w) e; PRet (Some e, WK (wk_start w) nx false)
  end.
(** drop of the fields, cursor.rs:1477-1481, 1532-1536 *)
Definition p_walk_drop (w : walk) : script unit := _ ← p_drop (wk_start w); p_drop_opt (ev_slot <$> wk_next w).
(** a client that calls [skip_subtree] after entering an element [skip] says yes to *)
(** a client of cursor.rs:1489-1491, 1544-1546 *)
Definition p_walk_drive (tok : bool) (skip : look -> bool) : p_iter walk (wevent nat) := fun w =>
  '(o, w) ← p_walk_next tok w;
  match o with
  | Some (Enter s) => l ← p_look s; PRet (o, if skip l then p_skip_subtree w else w)
  | _ => PRet (o, w)
  end.
(** cursor.rs:870-877 and the iterator to the end, with [skip_subtree] *)
Definition p_preorder (tok : bool) (skip : look -> bool) (fuel : nat) (s : nat) : script (list (wevent nat)) :=
  w ← p_walk_new s; p_collect (p_walk_drive tok skip) p_walk_drop fuel w.
(** [filter_map] that keeps the nodes entered and drops the others *)
(** cursor.rs:855-858, 863-866 *)
Fixpoint p_entered (tok : bool) (fuel : nat) (w : walk) : script (list nat) :=
  match fuel with
  | 0 => PDiverge
  | S fuel' =>
      '(o, w) ← p_walk_next tok w;
      match o with
      | None => _ ← p_walk_drop w; PRet []
      | Some (Enter s) => l ← p_entered tok fuel' w; PRet (s :: l)
      | Some (Leave s) => _ ← p_drop s; p_entered tok fuel' w
      end
  end.
(** cursor.rs:853-867 [descendants], [descendants_with_tokens] *)
Definition p_descendants (tok : bool) (fuel : nat) (s : nat) : script (list nat) := w ← p_walk_new s; p_entered tok fuel w.

(** ** Tokens *)
(** cursor.rs:826-831, 1167-1178 [first_token], [last_token] *)
Fixpoint p_end_token_f (nv : nav) (fuel : nat) (s : nat) : script (option nat) :=
  match fuel with
  | 0 => PDiverge
  | S fuel' =>
      l ← p_look s;
      if is_node (l_tree l) then
        o ← p_nav nv s;
        match o with
        | Some el => r ← p_end_token_f nv fuel' el; _ ← p_drop el; PRet r
        | None => PRet None
        end
      else c ← p_clone s; PRet (Some c)
  end.
(** the size of what is below bounds the recursion *)
(** cursor.rs:826-831, 1167-1178 *)
Definition p_end_token (nv : nav) (s : nat) : script (option nat) := l ← p_look s; p_end_token_f nv (tsize (l_tree l)) s.
(** cursor.rs:826-828 *)
Definition p_first_token := p_end_token NFirstChildOrToken.
(** cursor.rs:829-831 *)
Definition p_last_token := p_end_token NLastChildOrToken.
(** [Iterator::find_map] over [ancestors()] *)
(** used at cursor.rs:1093, 1102 *)
Fixpoint p_ancestors_find (nv : nav) (fuel : nat) (st : option nat) : script (option nat) :=
  match fuel with
  | 0 => PDiverge
  | S fuel' =>
      '(o, st) ← p_succ_next (p_nav NParent) st;
      match o with
      | None => _ ← p_drop_opt st; PRet None
      | Some item =>
          r ← p_nav nv item;
          _ ← p_drop item;
          match r with
          | Some x => _ ← p_drop_opt st; PRet (Some x)
          | None => p_ancestors_find nv fuel' st
          end
      end
  end.
(** cursor.rs:1088-1105 [next_token], [prev_token] *)
Definition p_step_token (nv ev : nav) (fuel : nat) (s : nat) : script (option nat) :=
  o ← p_nav nv s;
  match o with
  | Some el => r ← p_end_token ev el; _ ← p_drop el; PRet r
  | None =>
      a ← p_nav NParent s;
      o ← p_ancestors_find nv fuel a;
      match o with
      | Some el => r ← p_end_token ev el; _ ← p_drop el; PRet r
      | None => PRet None
      end
  end.
(** cursor.rs:1088-1096 *)
Definition p_next_token := p_step_token NNextSiblingOrToken NFirstChildOrToken.
(** cursor.rs:1097-1105 *)
Definition p_prev_token := p_step_token NPrevSiblingOrToken NLastChildOrToken.

(** ** Search *)
(** [Iterator::filter] on [children_with_tokens()]; cursor.rs:894-898 *)
Definition l_touches (offset : N) (l : look) : bool :=
  negb ((l_range l).1 =? (l_range l).2)%N && (((l_range l).1 <=? offset)%N && (offset <=? (l_range l).2)%N).
(** cursor.rs:894-898 *)
Fixpoint p_touching_next (offset : N) (fuel : nat) (it : kids) : script (option nat * kids) :=
  match fuel with
  | 0 => PDiverge
  | S fuel' =>
      '(o, it) ← p_kids_next true it;
      match o with
      | None => PRet (None, it)
      | Some s =>
          l ← p_look s;
          if l_touches offset l then PRet (Some s, it) else _ ← p_drop s; p_touching_next offset fuel' it
      end
  end.
(** cursor.rs:879-914, 1260-1266 [token_at_offset] of nodes and elements *)
Fixpoint p_token_at_offset_f (fuel : nat) (offset : N) (s : nat) : script (token_at_offset_t nat) :=
  match fuel with
  | 0 => PDiverge
  | S fuel' =>
      l ← p_look s;
      _ ← p_assert (((l_range l).1 <=? offset)%N && (offset <=? (l_range l).2)%N);
      if negb (is_node (l_tree l)) then c ← p_clone s; PRet (TaoSingle c) else
      if ((l_range l).1 =? (l_range l).2)%N then PRet TaoNone else
      it ← p_kids_new s;
      let n := S (length (tchildren (l_tree l))) in
      '(o1, it) ← p_touching_next offset n it;
      match o1 with
      | None => PPanic
      | Some lft =>
          '(o2, it) ← p_touching_next offset n it;
          '(o3, it) ← p_touching_next offset n it;
          _ ← p_assert (match o3 with None => true | Some _ => false end);
          match o2 with
          | Some rgt =>
              tl ← p_token_at_offset_f fuel' offset lft;
              tr ← p_token_at_offset_f fuel' offset rgt;
              match tl, tr with
              | TaoSingle x, TaoSingle y =>
                  _ ← p_drop lft; _ ← p_drop rgt; _ ← p_kids_drop it; PRet (TaoBetween x y)
              | _, _ => PPanic
              end
          | None => r ← p_token_at_offset_f fuel' offset lft; _ ← p_drop lft; _ ← p_kids_drop it; PRet r
          end
      end
  end.
(** cursor.rs:879-914 *)
Definition p_token_at_offset (offset : N) (s : nat) : script (token_at_offset_t nat) :=
  l ← p_look s; p_token_at_offset_f (tsize (l_tree l)) offset s.
(** cursor.rs:916-933 [covering_element]; [s] is used up *)
Fixpoint p_covering_f (fuel : nat) (a b : N) (s : nat) : script nat :=
  match fuel with
  | 0 => PDiverge
  | S fuel' =>
      l ← p_look s;
      _ ← p_assert (((l_range l).1 <=? a)%N && (b <=? (l_range l).2)%N);
      if negb (is_node (l_tree l)) then PRet s else
      o ← p_at_range a b s;
      match o with Some it => _ ← p_drop s; p_covering_f fuel' a b it | None => PRet s end
  end.
(** cursor.rs:916-933 *)
Definition p_covering_element (a b : N) (s : nat) : script nat :=
  l ← p_look s; c ← p_clone s; p_covering_f (tsize (l_tree l)) a b c.
