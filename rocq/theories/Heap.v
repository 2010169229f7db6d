(** * The node heap: memory management and mutation in src/cursor.rs, src/sll.rs

    [NodeData]s are cells of a heap addressed by [id]s; a pointer that is not in
    the heap is dangling and using it is [UB].  The green trees kept alive from
    outside (by root [NodeData]s, by the user's [GreenNode]s and by locals) are
    the list [ow], one entry per strong reference; a green element may be read
    only if it is inside one of them.  Which addresses the allocators return is
    up to the parameter [henv].

    Not modelled: the limit of 2^32 on reference counts (the process aborts) and
    on indices ([as u32]), and the [countme] counters.

    The functions take the kind of build as an implicit argument: in a debug
    build ([Checked]) overflows and failing [debug_assert]s panic, in a release
    build ([Wrapping]) additions and subtractions wrap and [debug_assert]s are
    not evaluated.  Outside the sections that declare [bld] the argument is
    [Checked]; Release.v compares the two. *)
From Verif Require Export CursorMore.
From stdpp Require Export gmap fin_maps.

(** the address of a [NodeData], cursor.rs:112-130 *)
Definition id := nat.

(** cursor.rs:112-130 [NodeData]; null pointers are [None] *)
Record ndata := ND {
  n_rc : nat; n_par : option id; n_idx : nat; n_grn : green; n_mut : bool; n_off : N;
  n_first : option id; n_next : option id; n_prev : option id }.
(** helper: assignment to a [Cell] of cursor.rs:112-130 *)
Definition set_rc v n := ND v (n_par n) (n_idx n) (n_grn n) (n_mut n) (n_off n) (n_first n) (n_next n) (n_prev n).
(** helper: assignment to a [Cell] of cursor.rs:112-130 *)
Definition set_par v n := ND (n_rc n) v (n_idx n) (n_grn n) (n_mut n) (n_off n) (n_first n) (n_next n) (n_prev n).
(** helper: assignment to a [Cell] of cursor.rs:112-130 *)
Definition set_idx v n := ND (n_rc n) (n_par n) v (n_grn n) (n_mut n) (n_off n) (n_first n) (n_next n) (n_prev n).
(** helper: assignment to a [Cell] of cursor.rs:112-130 *)
Definition set_grn v n := ND (n_rc n) (n_par n) (n_idx n) v (n_mut n) (n_off n) (n_first n) (n_next n) (n_prev n).
(** helper: assignment to a [Cell] of cursor.rs:112-130 *)
Definition set_off v n := ND (n_rc n) (n_par n) (n_idx n) (n_grn n) (n_mut n) v (n_first n) (n_next n) (n_prev n).
(** helper: assignment to a [Cell] of cursor.rs:112-130 *)
Definition set_first v n := ND (n_rc n) (n_par n) (n_idx n) (n_grn n) (n_mut n) (n_off n) v (n_next n) (n_prev n).
(** helper: assignment to a [Cell] of cursor.rs:112-130 *)
Definition set_next v n := ND (n_rc n) (n_par n) (n_idx n) (n_grn n) (n_mut n) (n_off n) (n_first n) v (n_prev n).
(** helper: assignment to a [Cell] of cursor.rs:112-130 *)
Definition set_prev v n := ND (n_rc n) (n_par n) (n_idx n) (n_grn n) (n_mut n) (n_off n) (n_first n) (n_next n) v.

(** helper: all memory the calls of cursor.rs can reach *)
Record heap := HP { hn : gmap id ndata; ow : list green; ck : nat }.
(** helper: updates of the memory *)
Definition set_hn (h : heap) m := HP m (ow h) (ck h).
(** helper: updates of the memory *)
Definition set_ow (h : heap) o := HP (hn h) o (ck h).

(** the allocators: [Box] for [NodeData], [Arc] for green nodes *)
(** std; cursor.rs:274, 280, arc.rs:346 *)
Record henv := { nalloc : nat -> gset id -> id; galloc : nat -> list addr -> addr }.
(** assumption on the allocators *)
Definition henv_ok (env : henv) : Prop :=
  (forall t D, nalloc env t D ∉ D) /\ (forall t L, galloc env t L ∉ L).

(** ** The monad: state survives an error, so that what a panic leaves behind can be studied *)
(** helper: the monad *)
Definition hm (A : Type) : Type := heap -> res A * heap.
(** helper: the monad *)
Global Instance hm_ret : MRet hm := fun A a h => (Ok a, h).
(** helper: the monad *)
Global Instance hm_bind : MBind hm := fun A B f m h =>
  match m h with (Ok a, h') => f a h' | (Err e, h') => (Err e, h') end.
(** helper: the monad *)
Definition lift {A} (r : res A) : hm A := fun h => (r, h).
(** [assert!], [debug_assert!], e.g. cursor.rs:192-193, 458-459 *)
Definition hassert (b : bool) : hm unit := lift (rassert b).
(** [panic!], e.g. cursor.rs:505 *)
Definition hpanic {A} : hm A := lift (Err Panic).
(** helper: the monad *)
Definition hskip : hm unit := mret ().

(** the kind of build *)
(** Cargo profiles: [overflow-checks] and [debug-assertions] together, as in the default profiles *)
Class build := bld_profile : profile.
Section build.
Context {bld : build}.
(** [debug_assert!], [debug_assert_eq!], [if cfg!(debug_assertions)], e.g. cursor.rs:193-194, 253-267 *)
Definition hdebug (b : bool) : hm unit := match (bld : profile) with Checked => hassert b | Wrapping => hskip end.

(** dereference a [NodeData] pointer *)
(** cursor.rs:596-598, 989-991 [data] *)
Definition h_get (p : id) : hm ndata := fun h =>
  match hn h !! p with Some n => (Ok n, h) | None => (Err UB, h) end.
(** write through a [NodeData] pointer *)
(** [Cell::set], e.g. cursor.rs:495-496 *)
Definition h_mod (p : id) (f : ndata -> ndata) : hm unit := fun h =>
  match hn h !! p with Some n => (Ok (), set_hn h (<[p := f n]> (hn h))) | None => (Err UB, h) end.
(** dereference a possibly null pointer *)
(** e.g. sll.rs:41-52, 105-110 *)
Definition h_ptr (o : option id) : hm id := lift (match o with Some p => Ok p | None => Err UB end).
(** [Box::new] *)
(** cursor.rs:274, 280 *)
Definition h_alloc (env : henv) (n : ndata) : hm id := fun h =>
  let p := nalloc env (ck h) (dom (hn h)) in (Ok p, HP (<[p := n]> (hn h)) (ow h) (S (ck h))).
(** drop of a [Box<NodeData>] *)
(** cursor.rs:195 *)
Definition h_del (p : id) : hm unit := fun h => (Ok (), set_hn h (delete p (hn h))).
(** number of live nodes: bounds every loop over lists and ancestors *)
(** helper: fuel *)
Definition h_size : hm nat := fun h => (Ok (S (size (hn h))), h).

(** ** Strong references to green elements *)
(** helper: which green elements are alive (arc.rs:164-196) *)
Definition live_addrs (l : list green) : list addr := concat (map gaddrs l).
(** helper: which green elements are alive (arc.rs:164-196) *)
Definition g_live (h : heap) (g : green) : bool := bool_decide (gaddr g ∈ live_addrs (ow h)).
(** remove one entry with the address of [g] *)
(** helper: which green elements are alive (arc.rs:164-196) *)
Fixpoint remove_addr (a : addr) (l : list green) : option (list green) :=
  match l with
  | [] => None
  | g :: l' => if gaddr g =? a then Some l' else cons g <$> remove_addr a l'
  end.
(** [to_owned]/[clone]: one more reference (reads the header, so the element must be live) *)
(** green/node.rs:59-63, green/token.rs:46-50, arc.rs:99-127 *)
Definition h_green_own (g : green) : hm unit := fun h =>
  if g_live h g then (Ok (), set_ow h (g :: ow h)) else (Err UB, h).
(** access through a reference *)
(** green/node.rs:187-198, green/token.rs:143-154 *)
Definition h_green_read (g : green) : hm unit := fun h => if g_live h g then (Ok (), h) else (Err UB, h).
(** drop of a [GreenNode]/[GreenToken] made by [from_raw] *)
(** cursor.rs:208-217, arc.rs:164-196 *)
Definition h_green_drop (g : green) : hm unit := fun h =>
  match remove_addr (gaddr g) (ow h) with Some o => (Ok (), set_ow h o) | None => (Err UB, h) end.
(** [GreenNode::new] on children shared from a live node: a new reference;
    [used] is moved into the new node.  If the constructor panics [used] is dropped. *)
(** green/node.rs:159-184, 203-232 *)
Definition h_green_build (env : henv) (f : addr -> res green) (used : option green) : hm green := fun h =>
  match (match used with Some u => remove_addr (gaddr u) (ow h) | None => Some (ow h) end) with
  | None => (Err UB, h)
  | Some o =>
      match f (galloc env (ck h) (live_addrs (ow h))) with
      | Ok g => (Ok g, HP (hn h) (g :: o) (S (ck h)))
      | Err e => (Err e, set_ow h o)
      end
  end.

(** cursor.rs:323-328 [NodeData::green]: dereferences the green pointer *)
Definition h_green (p : id) : hm green := fun h =>
  match hn h !! p with
  | Some n => if g_live h (n_grn n) then (Ok (n_grn n), h) else (Err UB, h)
  | None => (Err UB, h)
  end.

(** ** sll.rs: the list hanging off the cell [first] of node [head] *)
(** sll.rs:21-27 *)
Inductive sll_result := NoHead | EmptyHead (head : id) | SmallerThanHead (head : id) | SmallerThanNotHead (curr : id) | AlreadyInSll (curr : id).

(** sll.rs:30-59 [add_to_sll] *)
Definition h_add_to_sll (r : sll_result) (e : id) : hm unit :=
  _ ← h_mod e (set_prev (Some e));
  _ ← h_mod e (set_next (Some e));
  match r with
  | EmptyHead head => h_mod head (set_first (Some e))
  | SmallerThanHead head =>
      hd ← h_get head;
      old_head ← h_ptr (n_first hd);
      o ← h_get old_head;
      _ ← h_mod old_head (set_prev (Some e));
      prev ← h_ptr (n_prev o);
      _ ← h_mod prev (set_next (Some e));
      _ ← h_mod e (set_next (Some old_head));
      _ ← h_mod e (set_prev (Some prev));
      h_mod head (set_first (Some e))
  | SmallerThanNotHead curr =>
      c ← h_get curr;
      _ ← h_mod curr (set_next (Some e));
      next ← h_ptr (n_next c);
      _ ← h_mod next (set_prev (Some e));
      _ ← h_mod e (set_prev (Some curr));
      h_mod e (set_next (Some next))
  | NoHead | AlreadyInSll _ => hskip
  end.

(** sll.rs:71-88 [unlink] *)
Definition h_unlink (head e : id) : hm unit :=
  hd ← h_get head;
  _ ← hdebug (bool_decide (is_Some (n_first hd)));
  n ← h_get e;
  _ ← h_mod e (set_prev (Some e));
  _ ← h_mod e (set_next (Some e));
  prev ← h_ptr (n_prev n);
  next ← h_ptr (n_next n);
  pn ← h_get prev;
  _ ← hdebug (bool_decide (n_next pn = Some e));
  nn ← h_get next;
  _ ← hdebug (bool_decide (n_prev nn = Some e));
  _ ← h_mod prev (set_next (Some next));
  _ ← h_mod next (set_prev (Some prev));
  hd ← h_get head;
  if bool_decide (n_first hd = Some e)
  then h_mod head (set_first (if bool_decide (next = e) then None else Some next))
  else hskip.

(** sll.rs:105-112: the loop of [link] *)
Fixpoint h_link_loop (fuel : nat) (curr : id) (key : nat) : hm sll_result :=
  match fuel with
  | 0 => lift (Err Diverge)
  | S fuel' =>
      c ← h_get curr;
      match Nat.compare (n_idx c) key with
      | Lt => mret (SmallerThanNotHead curr)
      | Eq => mret (AlreadyInSll curr)
      | Gt => prev ← h_ptr (n_prev c); h_link_loop fuel' prev key
      end
  end.
(** sll.rs:91-114 [link]; only the key of the element is looked at *)
Definition h_link (head : id) (key : nat) : hm sll_result :=
  hd ← h_get head;
  match n_first hd with
  | None => mret (EmptyHead head)
  | Some old_head =>
      o ← h_get old_head;
      if key <? n_idx o then mret (SmallerThanHead head) else
      curr ← h_ptr (n_prev o);
      fuel ← h_size;
      h_link_loop fuel curr key
  end.

(** utility_types.rs:157-180 [Delta] and [+=]; a subtraction below 0 panics, or wraps in a release build *)
Inductive delta := DAdd (n : nat) | DSub (n : nat).
(** utility_types.rs:161-177 *)
Definition add_delta (k : nat) (d : delta) : res nat :=
  match d with
  | DAdd n => Ok (k + n)
  | DSub n =>
      if n <=? k then Ok (k - n) else
      match (bld : profile) with Checked => Err Panic | Wrapping => Ok (N.to_nat ((N.of_nat k + 2 ^ 32 - N.of_nat n) mod 2 ^ 32)) end
  end.
(** sll.rs:116-133 [adjust] *)
Fixpoint h_adjust_loop (fuel : nat) (elem curr : id) (from : nat) (by_ : delta) : hm unit :=
  match fuel with
  | 0 => lift (Err Diverge)
  | S fuel' =>
      c ← h_get curr;
      _ ← (if from <=? n_idx c then key ← lift (add_delta (n_idx c) by_); h_mod curr (set_idx key) else hskip);
      c ← h_get curr;
      next ← h_ptr (n_next c);
      if bool_decide (next = elem) then hskip else h_adjust_loop fuel' elem next from by_
  end.
(** sll.rs:116-133 *)
Definition h_adjust (elem : id) (from : nat) (by_ : delta) : hm unit :=
  fuel ← h_size; h_adjust_loop fuel elem elem from by_.

(** ** Reference counts *)
(** cursor.rs:284-291 [inc_rc] *)
Definition h_inc_rc (p : id) : hm unit := h_mod p (fun n => set_rc (S (n_rc n)) n).
(** cursor.rs:293-298 [dec_rc]; the subtraction panics below 0, or wraps in a release build *)
Definition h_dec_rc (p : id) : hm bool :=
  n ← h_get p;
  match n_rc n with
  | 0 => match (bld : profile) with Checked => hpanic | Wrapping => _ ← h_mod p (set_rc (N.to_nat u32_max)); mret false end
  | S rc => _ ← h_mod p (set_rc rc); mret (rc =? 0)
  end.
(** cursor.rs:189-222 [free]; the [Box] is dropped at the end of each round *)
Fixpoint h_free_loop (fuel : nat) (p : id) : hm unit :=
  match fuel with
  | 0 => lift (Err Diverge)
  | S fuel' =>
      n ← h_get p;
      _ ← hdebug (n_rc n =? 0);
      _ ← hdebug (bool_decide (n_first n = None));
      _ ← h_mod p (set_par None);
      match n_par n with
      | Some parent =>
          pn ← h_get parent;
          _ ← hdebug (0 <? n_rc pn);
          _ ← (if n_mut n then h_unlink parent p else hskip);
          zero ← h_dec_rc parent;
          _ ← h_del p;
          if zero : bool then h_free_loop fuel' parent else hskip
      | None =>
          _ ← h_green_drop (n_grn n);
          h_del p
      end
  end.
(** cursor.rs:189-222 *)
Definition h_free (p : id) : hm unit := fuel ← h_size; h_free_loop fuel p.
(** cursor.rs:150-156, 172-178 [Clone]; the result is the same pointer *)
Definition h_clone (p : id) : hm id := _ ← h_inc_rc p; mret p.
(** cursor.rs:158-165, 180-187 [Drop] *)
Definition h_drop (p : id) : hm unit := zero ← h_dec_rc p; if zero : bool then h_free p else hskip.
(** drop of an [Option] of a handle *)
Definition h_drop_opt (o : option id) : hm unit := match o with Some p => h_drop p | None => hskip end.

(** cursor.rs:226-282 [NodeData::new]; the parent is an owned handle *)
Definition h_new (env : henv) (parent : option id) (index : nat) (offset : N) (g : green) (mut : bool) : hm id :=
  let res := ND 1 parent index g mut offset None None None in
  if mut then
    r ← (match parent with Some q => h_link q index | None => mret NoHead end);
    match r with
    | AlreadyInSll node =>
        n ← h_get node;
        _ ← hdebug (n_idx n =? index);
        ng ← h_green node;
        _ ← hdebug (bool_decide (gis_node ng = gis_node g) && (gaddr ng =? gaddr g));
        _ ← h_drop_opt parent;
        _ ← h_inc_rc node;
        mret node
    | _ =>
        p ← h_alloc env res;
        _ ← h_add_to_sll r p;
        mret p
    end
  else h_alloc env res.

(** ** Reading *)
(** cursor.rs:351-362 [offset_mut] *)
Fixpoint h_offset_mut_loop (fuel : nat) (p : id) (acc : N) : hm N :=
  match fuel with
  | 0 => lift (Err Diverge)
  | S fuel' =>
      n ← h_get p;
      match n_par n with
      | None => mret acc
      | Some parent =>
          g ← h_green parent;
          _ ← hassert (gis_node g);
          c ← lift (unwrap (gchildren g !! n_idx n));
          acc' ← lift (add32 bld acc c.1);
          h_offset_mut_loop fuel' parent acc'
      end
  end.
(** cursor.rs:346-349 [offset] *)
Definition h_offset (p : id) : hm N :=
  n ← h_get p;
  if n_mut n then fuel ← h_size; h_offset_mut_loop fuel p 0%N else mret (n_off n).
(** cursor.rs:341-344 [index] *)
Definition h_index (p : id) : hm nat := n ← h_get p; mret (n_idx n).
(** cursor.rs:371-374 [kind] *)
Definition h_kind (p : id) : hm kind := g ← h_green p; mret (gkind g).
(** text-size range.rs [TextRange::at]: [TextRange::new] asserts that the end is not before the start *)
Definition range_end (pr : profile) (offset len : N) : res N :=
  match pr with
  | Checked => add32 Checked offset len
  | Wrapping => e ← add32 Wrapping offset len; _ ← rassert (offset <=? e)%N; Ok e
  end.
(** cursor.rs:364-369 [text_range] *)
Definition h_text_range (p : id) : hm range :=
  offset ← h_offset p;
  g ← h_green p;
  len ← lift (green_text_len g);
  e ← lift (range_end bld offset len);
  mret (TR offset e).
(** cursor.rs:301-307 [key], 1279-1330 [PartialEq]; the green pointer is compared, not read *)
Definition h_eq (p q : id) : hm bool :=
  n ← h_get p; o ← h_offset p;
  m ← h_get q; o' ← h_offset q;
  mret ((gaddr (n_grn n) =? gaddr (n_grn m)) && (o =? o')%N).
(** cursor.rs:330-339 [green_siblings] *)
Definition h_green_siblings (p : id) : hm (list (N * green)) :=
  n ← h_get p;
  match n_par n with
  | Some parent => g ← h_green parent; _ ← hdebug (gis_node g); mret (gchildren g)
  | None => mret []
  end.

(** ** Roots *)
(** cursor.rs:553-557 [new_root]; the green node is moved in *)
Definition h_new_root (env : henv) (g : green) : hm id := h_new env None 0 0%N g false.
(** cursor.rs:559-563 [new_root_mut] *)
Definition h_new_root_mut (env : henv) (g : green) : hm id := h_new env None 0 0%N g true.

(** ** Navigation; the results are owned handles *)
(** cursor.rs:309-315 [parent_node]; 666, 1052, 1150 [parent] *)
Definition h_parent (p : id) : hm (option id) :=
  n ← h_get p;
  match n_par n with
  | Some q => qn ← h_get q; _ ← hdebug (gis_node (n_grn qn)); _ ← h_inc_rc q; mret (Some q)
  | None => mret None
  end.
(** cursor.rs:565-574 [new_child], 977-986, 1114-1124 with the offset computed as
    at every call site; [parent] is an owned handle that is moved in *)
Definition h_mk_child (env : henv) (parent : id) (ic : nat * (N * green)) : hm id :=
  offset ← h_offset parent;
  offset ← lift (add32 bld offset ic.2.1);
  pn ← h_get parent;
  h_new env (Some parent) ic.1 offset ic.2.2 (n_mut pn).
(** the children accessors: select among the children, clone [self], make the child *)
(** the common part of cursor.rs:685-759 *)
Definition h_child_opt (env : henv) (sel : list (N * green) -> option (nat * (N * green))) (p : id) : hm (option id) :=
  g ← h_green p;
  _ ← hassert (gis_node g);
  match sel (gchildren g) with
  | Some ic => q ← h_clone p; c ← h_mk_child env q ic; mret (Some c)
  | None => mret None
  end.
(** the sibling accessors: select among the siblings, take the parent, make the child *)
(** the common part of cursor.rs:376-455 *)
Definition h_sibling_opt (env : henv) (sel : nat -> list (N * green) -> option (nat * (N * green))) (p : id) : hm (option id) :=
  cs ← h_green_siblings p;
  i ← h_index p;
  match sel i cs with
  | Some ic =>
      o ← h_parent p;
      match o with
      | Some parent => c ← h_mk_child env parent ic; mret (Some c)
      | None => mret None
      end
  | None => mret None
  end.
(** cursor.rs:685-696 *)
Definition h_first_child env := h_child_opt env (fun cs => find_map sel_node (enumerate cs)).
(** cursor.rs:698-712 *)
Definition h_first_child_by_kind env m := h_child_opt env (fun cs => find_map (sel_node_kind m) (enumerate cs)).
(** cursor.rs:714-725 *)
Definition h_last_child env := h_child_opt env (fun cs => find_map sel_node (rev (enumerate cs))).
(** cursor.rs:727-731 *)
Definition h_first_child_or_token env := h_child_opt env (fun cs => pair 0 <$> head cs).
(** cursor.rs:733-748 *)
Definition h_first_child_or_token_by_kind env m := h_child_opt env (fun cs => find_map (sel_kind m) (enumerate cs)).
(** cursor.rs:750-759 *)
Definition h_last_child_or_token env := h_child_opt env (fun cs => last (enumerate cs)).
(** cursor.rs:376-387; 796 *)
Definition h_next_sibling env := h_sibling_opt env (fun i cs => find_map sel_node (drop (i + 1) (enumerate cs))).
(** cursor.rs:389-403; 800 *)
Definition h_next_sibling_by_kind env m := h_sibling_opt env (fun i cs => find_map (sel_node_kind m) (drop (i + 1) (enumerate cs))).
(** cursor.rs:405-416; 807 *)
Definition h_prev_sibling env := h_sibling_opt env (fun i cs =>
  let rev_siblings := rev (enumerate cs) in
  if length rev_siblings <? i then None else find_map sel_node (drop (length rev_siblings - i) rev_siblings)).
(** cursor.rs:418-427; 811, 1062, 1183 *)
Definition h_next_sibling_or_token env := h_sibling_opt env (fun i cs => enumerate cs !! (i + 1)).
(** cursor.rs:429-444; 815, 1066, 1243 *)
Definition h_next_sibling_or_token_by_kind env m := h_sibling_opt env (fun i cs => find_map (sel_kind m) (drop (i + 1) (enumerate cs))).
(** cursor.rs:446-455; 822, 1073, 1253 *)
Definition h_prev_sibling_or_token env := h_sibling_opt env (fun i cs => match i with 0 => None | S i' => enumerate cs !! i' end).
(** cursor.rs:935-940 [child_or_token_at_range] *)
Definition h_child_or_token_at_range (env : henv) (p : id) (r : range) : hm (option id) :=
  offset ← h_offset p;
  rel ← lift (range_sub r offset);
  h_child_opt env (fun cs => match child_at_range (GNode 0 0 0 cs) rel with
                             | Some (i, ro, g) => Some (i, (ro, g)) | None => None end) p.

(** cursor.rs:601-603, 994-996 [can_take_ptr] *)
Definition h_can_take_ptr (p : id) : hm bool := n ← h_get p; mret ((n_rc n =? 1) && negb (n_mut n)).
(** cursor.rs:763-794 [to_next_sibling] and 1203-1241 [to_next_sibling_or_token]:
    consume the handle; reuse the [NodeData] if nobody else can see it.  [slow] is
    the corresponding shared version, [sel] what it selects. *)
Definition h_to_next (env : henv) (slow : id -> hm (option id)) (sel : nat * (N * green) -> option (nat * (N * green))) (p : id) : hm (option id) :=
  can ← h_can_take_ptr p;
  if negb can then
    r ← slow p; _ ← h_drop p; mret r
  else
    o ← h_parent p;
    match o with
    | None => mret None (* the [?] returns; [p] has been forgotten by [take_ptr] *)
    | Some parent =>
        parent_offset ← h_offset parent;
        g ← h_green parent;
        _ ← hassert (gis_node g);
        n ← h_get p;
        r ← (match find_map sel (drop (n_idx n + 1) (enumerate (gchildren g))) with
             | Some (index, (rel_offset, green)) =>
                 offset ← lift (add32 bld parent_offset rel_offset);
                 _ ← h_mod p (fun n => set_grn green (set_off offset (set_idx index n)));
                 mret (Some p)
             | None =>
                 _ ← h_dec_rc p;
                 _ ← h_free p;
                 mret None
             end);
        _ ← h_drop parent;
        mret r
    end.
(** cursor.rs:763-794 *)
Definition h_to_next_sibling env := h_to_next env (h_next_sibling env) sel_node.
(** cursor.rs:1203-1241 *)
Definition h_to_next_sibling_or_token env := h_to_next env (h_next_sibling_or_token env) Some.

(** ** Copies *)
(** cursor.rs:580-589 [clone_for_update] *)
Fixpoint h_clone_for_update_loop (env : henv) (fuel : nat) (p : id) : hm id :=
  match fuel with
  | 0 => lift (Err Diverge)
  | S fuel' =>
      n ← h_get p;
      _ ← hassert (negb (n_mut n));
      o ← h_parent p;
      match o with
      | Some parent =>
          parent' ← h_clone_for_update_loop env fuel' parent;
          g ← h_green p;
          _ ← hassert (gis_node g);
          index ← h_index p;
          offset ← h_offset p;
          pn ← h_get parent';
          c ← h_new env (Some parent') index offset g (n_mut pn);
          _ ← h_drop parent;
          mret c
      | None =>
          g ← h_green p;
          _ ← hassert (gis_node g);
          _ ← h_green_own g;
          h_new_root_mut env g
      end
  end.
(** cursor.rs:580-589 *)
Definition h_clone_for_update (env : henv) (p : id) : hm id := fuel ← h_size; h_clone_for_update_loop env fuel p.
(** cursor.rs:591-593 [clone_subtree] *)
Definition h_clone_subtree (env : henv) (p : id) : hm id :=
  g ← h_green p; _ ← hassert (gis_node g); _ ← h_green_own g; h_new_root env g.

(** ** Mutation *)
(** cursor.rs:524-549 [respine]; [new_green] is an owned reference *)
Fixpoint h_respine_loop (env : henv) (fuel : nat) (node : id) (new_green : green) : hm unit :=
  match fuel with
  | 0 => lift (Err Diverge)
  | S fuel' =>
      n ← h_get node;
      _ ← hassert (gis_node (n_grn n));
      _ ← h_mod node (set_grn new_green);
      match n_par n with
      | Some parent =>
          parent_green ← h_green parent;
          _ ← hassert (gis_node parent_green);
          new_green' ← h_green_build env (fun a => green_replace_child bld a parent_green (n_idx n) new_green) (Some new_green);
          h_respine_loop env fuel' parent new_green'
      | None => h_green_drop (n_grn n)
      end
  end.
(** cursor.rs:524-549 *)
Definition h_respine (env : henv) (node : id) (new_green : green) : hm unit :=
  fuel ← h_size; h_respine_loop env fuel node new_green.
(** cursor.rs:457-490 [NodeData::detach]; 960-963, 1107-1110, 1268-1273 *)
Definition h_detach (env : henv) (p : id) : hm unit :=
  n ← h_get p;
  _ ← hassert (n_mut n);
  _ ← hassert (0 <? n_rc n);
  _ ← h_mod p (set_par None);
  match n_par n with
  | None => hskip
  | Some parent =>
      i ← h_index p;
      _ ← h_adjust p (i + 1) (DSub 1);
      _ ← h_unlink parent p;
      g ← h_green p;
      _ ← h_green_own g;
      pg ← h_green parent;
      _ ← hassert (gis_node pg);
      i ← h_index p;
      green ← h_green_build env (fun a => green_remove_child bld a pg i) None;
      _ ← h_respine env parent green;
      zero ← h_dec_rc parent;
      if zero : bool then h_free parent else hskip
  end.
(** cursor.rs:491-523 [NodeData::attach_child]; [respine]: what the call of [respine] at
    its end does *)
Definition h_attach_with (env : henv) (respine : id -> green -> hm unit) (self : id) (index : nat) (child : id) : hm unit :=
  sn ← h_get self;
  cn ← h_get child;
  _ ← hassert (n_mut sn && n_mut cn && bool_decide (n_par cn = None));
  _ ← hassert ((0 <? n_rc sn) && (0 <? n_rc cn));
  _ ← h_mod child (set_idx index);
  _ ← h_mod child (set_par (Some self));
  _ ← h_inc_rc self;
  sn ← h_get self;
  _ ← (match n_first sn with Some first => h_adjust first index (DAdd 1) | None => hskip end);
  r ← h_link self index;
  _ ← (match r with AlreadyInSll _ => hpanic | _ => h_add_to_sll r child end);
  g ← h_green self;
  _ ← hassert (gis_node g);
  cn ← h_get child;
  green ← h_green_build env (fun a => green_insert_child bld a g index (n_grn cn)) (Some (n_grn cn));
  respine self green.
(** cursor.rs:491-523 *)
Definition h_attach_data (env : henv) (self : id) (index : nat) (child : id) : hm unit :=
  h_attach_with env (h_respine env) self index child.
(** cursor.rs:965-973 [SyntaxNode::attach_child]; the child handle is moved in *)
Definition h_attach_child (env : henv) (self : id) (index : nat) (child : id) : hm unit :=
  sn ← h_get self;
  _ ← hassert (n_mut sn);
  _ ← h_detach env child;
  _ ← h_attach_data env self index child;
  h_drop child.

(** cursor.rs:1416-1460 [SyntaxElementChildren] and 1357-1398 [SyntaxNodeChildren]:
    the iterator owns its handles *)
Record hchildren := HC { hc_parent : id; hc_next : option id; hc_init : bool }.
(** cursor.rs:676-683, 1364-1366, 1423-1425 *)
Definition h_children_new (p : id) : hm hchildren := q ← h_clone p; mret (HC q None false).
(** std [Option::clone], used at cursor.rs:1390-1396, 1452-1458 *)
Definition h_clone_opt (o : option id) : hm (option id) :=
  match o with Some p => q ← h_clone p; mret (Some q) | None => mret None end.
(** cursor.rs:1450-1459 *)
Definition h_element_children_next (env : henv) (it : hchildren) : hm (option id * hchildren) :=
  nx ← (if negb (hc_init it) then h_first_child_or_token env (hc_parent it)
        else match hc_next it with Some next => h_to_next_sibling_or_token env next | None => mret None end);
  o ← h_clone_opt nx;
  mret (o, HC (hc_parent it) nx true).
(** cursor.rs:1388-1397 *)
Definition h_node_children_next (env : henv) (it : hchildren) : hm (option id * hchildren) :=
  nx ← (if negb (hc_init it) then h_first_child env (hc_parent it)
        else match hc_next it with Some next => h_to_next_sibling env next | None => mret None end);
  o ← h_clone_opt nx;
  mret (o, HC (hc_parent it) nx true).
(** drop of the two fields, cursor.rs:1357-1361, 1416-1420 *)
Definition h_children_drop (it : hchildren) : hm unit :=
  _ ← h_drop (hc_parent it); h_drop_opt (hc_next it).

(** [for (i, child) in it.enumerate() { if sel(i) { child.detach() } }]; the child is
    dropped at the end of each round, the iterator at the end of the loop *)
(** cursor.rs:948-952 *)
Fixpoint h_detach_loop (env : henv) (next : hchildren -> hm (option id * hchildren)) (sel : nat -> bool) (fuel i : nat) (it : hchildren) : hm unit :=
  match fuel with
  | 0 => lift (Err Diverge)
  | S fuel' =>
      '(o, it) ← next it;
      match o with
      | Some child =>
          _ ← (if sel i then h_detach env child else hskip);
          _ ← h_drop child;
          h_detach_loop env next sel fuel' (S i) it
      | None => h_children_drop it
      end
  end.
(** cursor.rs:954-957 *)
Fixpoint h_attach_all (env : henv) (self : id) (index : nat) (to_insert : list id) : hm unit :=
  match to_insert with
  | [] => hskip
  | child :: rest => _ ← h_attach_child env self index child; h_attach_all env self (S index) rest
  end.
(** cursor.rs:942-958 [splice_children]; [Range::contains] *)
Definition h_splice_children (env : henv) (self : id) (s e : nat) (to_insert : list id) : hm unit :=
  sn ← h_get self;
  _ ← hassert (n_mut sn);
  g ← h_green self;
  it ← h_children_new self;
  _ ← h_detach_loop env (h_element_children_next env) (fun i => (s <=? i) && (i <? e)) (S (length (gchildren g))) 0 it;
  h_attach_all env self s to_insert.
End build.
(** where no build is named it is a debug build *)
Global Hint Extern 100 build => exact Checked : typeclass_instances.
(** proof device *)
Ltac debug := change (@hdebug Checked) with hassert; change (range_end Checked) with (add32 Checked).
