(** * Memory of green trees: allocations, reference counts, sharing

    Green.v treats a green element as a value, and Heap.v keeps a list of the
    elements to which a strong reference exists.  Here the allocations
    themselves are modelled: every [ArcInner] holds a count and the data
    written into it, children are pointers to other allocations, clones and
    drops change counts, and the last drop drops the children and frees.

    Not modelled: the atomics (Arc.v), the layout of an allocation (Layout.v),
    the abort when a count exceeds [isize::MAX] (arc.rs:119-121), failure of
    the allocator (arc.rs:348-350) and the overflow checks on sizes
    (arc.rs:335-342). *)
From stdpp Require Export gmap.
From Verif Require Export CacheFacts.

(** the data of an allocation: green/node.rs:18-39 (kind, text_len, children
    with their offsets), green/token.rs:16-27 (kind, text) *)
Inductive gcell :=
| GCNode (k : kind) (tl : N) (cs : list (N * addr))
| GCTok (k : kind) (s : str).
(** green/node.rs:120-122 [slice]: the pointers stored in the allocation *)
Definition cslots (c : gcell) : list addr :=
  match c with GCNode _ _ cs => map snd cs | GCTok _ _ => [] end.
(** green/node.rs:126-128, green/token.rs:92-94 [kind] *)
Definition ckind (c : gcell) : kind := match c with GCNode k _ _ | GCTok k _ => k end.
(** green/node.rs:132-134, green/token.rs:104-106 [text_len] *)
Definition ctext_len (c : gcell) : res N :=
  match c with
  | GCNode _ tl _ => Ok tl
  | GCTok _ s => if (blen s <=? u32_max)%N then Ok (blen s) else Err Panic
  end.

(** all live allocations: arc.rs:24-27 [ArcInner], the count and the data *)
Notation gmem := (gmap addr (nat * gcell)).
(** the memory of all [ArcInner]s (arc.rs:24-27), and a clock for the allocator (arc.rs:346) *)
Record gst := GST { gmm : gmem; gck : nat }.
(** the allocator (std [alloc::alloc], arc.rs:346): may return any address that is not in use *)
Definition galloc_ok (al : nat -> gset addr -> addr) : Prop := forall t D, al t D ∉ D.

(** ** The monad: the memory survives a panic *)
(** helper: the monad *)
Definition gsm (A : Type) : Type := gst -> res A * gst.
(** helper: the monad *)
Global Instance gsm_ret : MRet gsm := fun A a h => (Ok a, h).
(** helper: the monad *)
Global Instance gsm_bind : MBind gsm := fun A B f m h =>
  match m h with (Ok a, h') => f a h' | (Err e, h') => (Err e, h') end.
(** helper: the monad *)
Definition gs_err {A} (e : err) : gsm A := fun h => (Err e, h).
(** helper: run one call per element of a list *)
Fixpoint gs_each {A} (f : A -> gsm unit) (l : list A) : gsm unit :=
  match l with [] => mret () | x :: l' => _ ← f x; gs_each f l' end.
(** helper: the same, collecting the results *)
Fixpoint gs_map {A B} (f : A -> gsm B) (l : list A) : gsm (list B) :=
  match l with [] => mret [] | x :: l' => y ← f x; ys ← gs_map f l'; mret (y :: ys) end.
(** what unwinding and the end of a scope do: run [d] whether or not [m] panics *)
(** helper: drop glue *)
Definition gs_finally {A} (m : gsm A) (d : gsm unit) : gsm A := fun h =>
  match m h with
  | (Ok a, h') => (_ ← d; mret a) h'
  | (Err Panic, h') => (_ ← d; gs_err Panic) h'
  | (Err e, h') => (Err e, h')
  end.

(** ** One allocation *)
(** dereference: green/node.rs:187-198, green/token.rs:143-154; a freed or
    dropped allocation may not be read *)
Definition gs_cell (a : addr) : gsm gcell := fun h =>
  match gmm h !! a with
  | Some (S _, c) => (Ok c, h)
  | _ => (Err UB, h)
  end.
(** arc.rs:344-388 [from_header_and_iter] (count 1) once the data is known *)
Definition gs_alloc (al : nat -> gset addr -> addr) (c : gcell) : gsm addr := fun h =>
  let a := al (gck h) (dom (gmm h)) in
  (Ok a, GST (<[a := (1, c)]> (gmm h)) (S (gck h))).
(** arc.rs:99-127 [Arc::clone], through arc.rs:399-404, green/node.rs:59-63,
    green/token.rs:46-50 *)
Definition gs_clone (a : addr) : gsm unit := fun h =>
  match gmm h !! a with
  | Some (S n, c) => (Ok (), GST (<[a := (S (S n), c)]> (gmm h)) (gck h))
  | _ => (Err UB, h)
  end.
(** helper: write to an allocation (arc.rs:24-27) *)
Definition gs_set (a : addr) (v : nat * gcell) : gsm unit := fun h => (Ok (), GST (<[a := v]> (gmm h)) (gck h)).
(** arc.rs:81: the [Box] frees the memory *)
Definition gs_free (a : addr) : gsm unit := fun h => (Ok (), GST (delete a (gmm h)) (gck h)).
(** arc.rs:406-411 [Drop for ThinArc], 164-196 [Drop for Arc]: one reference
    less; the last one runs [drop_slow] (79-83), that is the drop glue of the
    children in order (each again this function) and then frees.  [depth]
    bounds the nesting of calls.  While the children are dropped the count is
    0; their pointers are taken out of the cell, in the code they stay there
    unread. *)
Fixpoint gs_drop_rec (depth : nat) (a : addr) : gsm unit :=
  match depth with
  | 0 => gs_err Diverge
  | S depth' => fun h =>
      match gmm h !! a with
      | Some (S (S n), c) => (Ok (), GST (<[a := (S n, c)]> (gmm h)) (gck h))
      | Some (1, c) =>
          (_ ← gs_set a (0, GCTok (ckind c) []);
           _ ← gs_each (gs_drop_rec depth') (cslots c);
           gs_free a) h
      | _ => (Err UB, h)
      end
  end.
(** drop of a handle; the number of live allocations bounds the depth of any tree *)
(** arc.rs:406-411 *)
Definition gs_drop (a : addr) : gsm unit := fun h => gs_drop_rec (S (size (gmm h))) a h.

(** ** Construction *)
(** where the next child handed to the closure at green/node.rs:209 comes
    from: an owned handle, or a child of an existing node that is cloned when
    it is reached (green/node.rs:161-163) *)
Inductive src := Own (a : addr) | Ref (a : addr).
(** green/node.rs:162: [take().unwrap()] or [to_owned()] *)
Definition gs_take (s : src) : gsm addr :=
  match s with Own a => mret a | Ref a => _ ← gs_clone a; mret a end.
(** unwinding: owned handles not yet consumed are dropped (arc.rs:364-368 is about the consumed ones) *)
Definition gs_untake (s : src) : gsm unit :=
  match s with Own a => gs_drop a | Ref _ => mret () end.
(** green/node.rs:208-216 driven by arc.rs:372-378: the children written so
    far with their offsets, and the total or, when the addition (or
    [TextSize::of]) panics, what was not consumed *)
Fixpoint gs_fill (pr : profile) (text_len : N) (items : list src) : gsm (list (N * addr) * (N + list src)) :=
  match items with
  | [] => mret ([], inl text_len)
  | s :: items' =>
      a ← gs_take s;
      c ← gs_cell a;
      match l ← ctext_len c; add32 pr text_len l with
      | Ok text_len' =>
          '(w, r) ← gs_fill pr text_len' items';
          mret ((text_len, a) :: w, r)
      | Err _ => mret ([], inr (Own a :: items'))
      end
  end.
(** green/node.rs:203-232 [GreenNode::new].  When the closure panics the
    allocation and the children already written into it leak (arc.rs:364-368):
    the cell stays, with count 1 and nobody to drop it.  In the code the
    address is obtained before the children are read; reading them neither
    allocates nor frees. *)
Definition gs_new (al : nat -> gset addr -> addr) (pr : profile) (k : kind) (items : list src) : gsm addr :=
  '(w, r) ← gs_fill pr 0%N items;
  match r with
  | inl total => gs_alloc al (GCNode k total w)
  | inr rest =>
      _ ← gs_alloc al (GCNode k 0%N w);
      _ ← gs_each gs_untake rest;
      gs_err Panic
  end.
(** green/token.rs:112-116 [GreenToken::new] *)
Definition gs_token (al : nat -> gset addr -> addr) (k : kind) (s : str) : gsm addr := gs_alloc al (GCTok k s).

(** ** Edits *)
(** green/node.rs:176-184 [splice_children]: clone all children into a [Vec],
    replace the range (the removed ones are dropped), build a node.  A bad
    range panics (std): the vector and the new children are dropped. *)
Definition gs_splice (al : nat -> gset addr -> addr) (pr : profile) (a : addr) (lo hi : bound) (els : list addr) : gsm addr :=
  c ← gs_cell a;
  _ ← gs_each gs_clone (cslots c);
  match vec_splice (cslots c) lo hi els with
  | Err _ => _ ← gs_each gs_drop (cslots c); _ ← gs_each gs_drop els; gs_err Panic
  | Ok children =>
      let s := bound_start lo in
      let e := bound_end (length (cslots c)) hi in
      _ ← gs_each gs_drop (take (e - s) (drop s (cslots c)));
      gs_new al pr (ckind c) (map Own children)
  end.
(** green/node.rs:167-170 [insert_child] *)
Definition gs_insert (al : nat -> gset addr -> addr) (pr : profile) (a : addr) (i : nat) (el : addr) : gsm addr :=
  gs_splice al pr a (Included i) (Excluded i) [el].
(** green/node.rs:172-174 [remove_child] *)
Definition gs_remove (al : nat -> gset addr -> addr) (pr : profile) (a : addr) (i : nat) : gsm addr :=
  gs_splice al pr a (Included i) (Included i) [].
(** green/node.rs:159-165 [replace_child]; [replacement] is dropped at the end if it was not taken *)
Definition gs_replace (al : nat -> gset addr -> addr) (pr : profile) (a : addr) (i : nat) (el : addr) : gsm addr :=
  c ← gs_cell a;
  let items := imap (fun j x => if j =? i then Own el else Ref x) (cslots c) in
  if i <? length (cslots c) then gs_new al pr (ckind c) items
  else gs_finally (gs_new al pr (ckind c) items) (gs_drop el).

(** green/node.rs:292-294 [Children::next] then [to_owned] (green/element.rs:48-55): a handle on child [i] *)
Definition gs_child (a : addr) (i : nat) : gsm (option addr) :=
  c ← gs_cell a;
  match cslots c !! i with
  | Some x => _ ← gs_clone x; mret (Some x)
  | None => mret None
  end.

(** reading everything below a handle: [kind], [children], [text] (green/node.rs:126-140, green/token.rs:92-100) *)
Fixpoint gs_read_rec (depth : nat) (a : addr) : gsm tree :=
  match depth with
  | 0 => gs_err Diverge
  | S depth' =>
      c ← gs_cell a;
      match c with
      | GCTok k s => mret (Token k s)
      | GCNode k _ cs =>
          ts ← gs_map (gs_read_rec depth') (map snd cs);
          mret (Node k ts)
      end
  end.
(** the same, deep enough for every tree in memory *)
(** green/node.rs:126-140, green/token.rs:92-100 *)
Definition gs_read (a : addr) : gsm tree := fun h => gs_read_rec (S (size (gmm h))) a h.

(** ** Programs using green trees directly *)
(** calls of a client of green/node.rs:43-265; handles are numbered in the order in which they are
    obtained, and are moved into the call where the code takes them by value *)
Inductive gop :=
| GOToken (k : kind) (s : str)                          (** [GreenToken::new], green/token.rs:112 *)
| GONode (k : kind) (hs : list nat)                     (** [GreenNode::new], green/node.rs:203 *)
| GOClone (h : nat)                                     (** [clone], green/node.rs:49, token.rs:36 *)
| GODrop (h : nat)                                      (** [drop] *)
| GOChild (h i : nat)                                   (** [children().nth(i).to_owned()], green/node.rs:138 *)
| GOSplice (h : nat) (lo hi : bound) (hs : list nat)    (** [splice_children], green/node.rs:176 *)
| GOInsert (h i x : nat)                                (** [insert_child], green/node.rs:167 *)
| GORemove (h i : nat)                                  (** [remove_child], green/node.rs:172 *)
| GOReplace (h i x : nat)                               (** [replace_child], green/node.rs:159 *)
| GORead (h : nat).                                     (** walk below the handle *)

(** what a call shows to the client *)
(** helper of statements *)
Inductive gobs := OHandle | ONone | OTree (t : tree) | OUnit | OPanic.

(** a handle variable: moved-out handles are [None] (Rust's move semantics) *)
(** helper: take handles out of their variables; a handle that a call borrows cannot be moved into it; [None] when the program would not compile *)
Fixpoint g_move {A} (hs : list nat) (env : list (option A)) : option (list A * list (option A)) :=
  match hs with
  | [] => Some ([], env)
  | h :: hs' =>
      match env !! h with
      | Some (Some x) => match g_move hs' (<[h := None]> env) with
                         | Some (xs, env') => Some (x :: xs, env')
                         | None => None
                         end
      | _ => None
      end
  end.
(** helper: the value of a variable *)
Definition g_peek {A} (h : nat) (env : list (option A)) : option A := mjoin (env !! h).

(** helper: run a call that yields a handle; panics are caught ([std::panic::catch_unwind]) *)
Definition g_call (m : gsm addr) (env : list (option addr)) (st : gst) : res (gobs * list (option addr) * gst) :=
  match m st with
  | (Ok a, st') => Ok (OHandle, env ++ [Some a], st')
  | (Err Panic, st') => Ok (OPanic, env ++ [None], st')
  | (Err e, _) => Err e
  end.
(** helper: a program that would not compile *)
Definition g_reject {A} : res A := Err Diverge.

(** one call of the client (green/node.rs:43-265; the functions cited at [gop]) *)
Definition g_step (al : nat -> gset addr -> addr) (pr : profile) (o : gop) (env : list (option addr)) (st : gst)
    : res (gobs * list (option addr) * gst) :=
  match o with
  | GOToken k s => g_call (gs_token al k s) env st
  | GONode k hs =>
      match g_move hs env with
      | Some (xs, env') => g_call (gs_new al pr k (map Own xs)) env' st
      | None => g_reject
      end
  | GOClone h =>
      match g_peek h env with
      | Some a => g_call (_ ← gs_clone a; mret a) env st
      | None => g_reject
      end
  | GODrop h =>
      match g_move [h] env with
      | Some (xs, env') =>
          match gs_each gs_drop xs st with
          | (Ok _, st') => Ok (OUnit, env', st')
          | (Err e, _) => Err e
          end
      | None => g_reject
      end
  | GOChild h i =>
      match g_peek h env with
      | Some a =>
          match gs_child a i st with
          | (Ok (Some x), st') => Ok (OHandle, env ++ [Some x], st')
          | (Ok None, st') => Ok (ONone, env ++ [None], st')
          | (Err e, _) => Err e
          end
      | None => g_reject
      end
  | GOSplice h lo hi hs =>
      match g_move hs env with
      | Some (xs, env') =>
          match g_peek h env' with
          | Some a => g_call (gs_splice al pr a lo hi xs) env' st
          | None => g_reject
          end
      | None => g_reject
      end
  | GOInsert h i x =>
      match g_move [x] env with
      | Some (ys, env') =>
          match g_peek h env', ys with
          | Some a, [y] => g_call (gs_insert al pr a i y) env' st
          | _, _ => g_reject
          end
      | None => g_reject
      end
  | GORemove h i =>
      match g_peek h env with
      | Some a => g_call (gs_remove al pr a i) env st
      | None => g_reject
      end
  | GOReplace h i x =>
      match g_move [x] env with
      | Some (ys, env') =>
          match g_peek h env', ys with
          | Some a, [y] => g_call (gs_replace al pr a i y) env' st
          | _, _ => g_reject
          end
      | None => g_reject
      end
  | GORead h =>
      match g_peek h env with
      | Some a => match gs_read a st with (Ok t, st') => Ok (OTree t, env, st') | (Err e, _) => Err e end
      | None => g_reject
      end
  end.
(** a whole program *)
(** helper: the calls in order *)
Fixpoint g_run (al : nat -> gset addr -> addr) (pr : profile) (p : list gop) (env : list (option addr)) (st : gst)
    : res (list gobs * list (option addr) * gst) :=
  match p with
  | [] => Ok ([], env, st)
  | o :: p' =>
      '(b, env', st') ← g_step al pr o env st;
      '(bs, env'', st'') ← g_run al pr p' env' st';
      Ok (b :: bs, env'', st'')
  end.

(** ** Specification: the same programs over trees *)
(** can [GreenNode::new] take these children?  In a checked build the total
    length must fit in [u32]; in a wrapping build only the length of each
    child that is a token is checked. *)
Definition gbuildable (pr : profile) (ts : list tree) : bool :=
  match pr with
  | Checked => (blen (concat (map ttext ts)) <=? u32_max)%N
  | Wrapping => forallb (fun t => is_node t || (blen (ttext t) <=? u32_max)%N) ts
  end.
(** the children before the first one at which it panics: the longest buildable prefix *)
Fixpoint gwritten (pr : profile) (before : list tree) (ts : list tree) : list tree :=
  match ts with
  | [] => before
  | t :: ts' => if gbuildable pr (before ++ [t]) then gwritten pr (before ++ [t]) ts' else before
  end.
(** the handles, and the nodes that leaked: kind and children *)
Definition sgst := (list (option tree) * list tree)%type.
(** the result of [GreenNode::new] *)
Definition s_new (pr : profile) (k : kind) (ts : list tree) (env : list (option tree)) (lk : list tree)
    : option (gobs * sgst) :=
  if gbuildable pr ts then Some (OHandle, (env ++ [Some (Node k ts)], lk))
  else Some (OPanic, (env ++ [None], Node k (gwritten pr [] ts) :: lk)).
(** the children of a node; [None] for tokens *)
Definition s_children (t : tree) : option (kind * list tree) :=
  match t with Node k cs => Some (k, cs) | Token _ _ => None end.
(** one call; [None] when the program would not compile (a moved handle is
    used, or a method of nodes is called on a token) *)
Definition s_gstep (pr : profile) (o : gop) (st : sgst) : option (gobs * sgst) :=
  let '(env, lk) := st in
  match o with
  | GOToken k s => Some (OHandle, (env ++ [Some (Token k s)], lk))
  | GONode k hs =>
      match g_move hs env with Some (ts, env') => s_new pr k ts env' lk | None => None end
  | GOClone h => match g_peek h env with Some t => Some (OHandle, (env ++ [Some t], lk)) | None => None end
  | GODrop h => match g_peek h env with Some _ => Some (OUnit, (<[h := None]> env, lk)) | None => None end
  | GOChild h i =>
      match g_peek h env ≫= s_children with
      | Some (_, cs) => Some (match cs !! i with Some _ => OHandle | None => ONone end, (env ++ [cs !! i], lk))
      | None => None
      end
  | GOSplice h lo hi hs =>
      match g_move hs env with
      | Some (ts, env') =>
          match g_peek h env' ≫= s_children with
          | Some (k, cs) =>
          let s := match lo with Included n => n | Excluded n => S n | Unbounded => 0 end in
          let e := match hi with Included n => S n | Excluded n => n | Unbounded => length cs end in
          if (s <=? e) && (e <=? length cs) then s_new pr k (take s cs ++ ts ++ drop e cs) env' lk
          else Some (OPanic, (env' ++ [None], lk))
          | None => None
          end
      | None => None
      end
  | GOInsert h i x =>
      match g_peek h (<[x := None]> env) ≫= s_children, g_peek x env with
      | Some (k, cs), Some t =>
          if i <=? length cs then s_new pr k (take i cs ++ t :: drop i cs) (<[x := None]> env) lk
          else Some (OPanic, (<[x := None]> env ++ [None], lk))
      | _, _ => None
      end
  | GORemove h i =>
      match g_peek h env ≫= s_children with
      | Some (k, cs) =>
          if i <? length cs then s_new pr k (take i cs ++ drop (S i) cs) env lk
          else Some (OPanic, (env ++ [None], lk))
      | None => None
      end
  | GOReplace h i x =>
      match g_peek h (<[x := None]> env) ≫= s_children, g_peek x env with
      | Some (k, cs), Some t => s_new pr k (<[i := t]> cs) (<[x := None]> env) lk
      | _, _ => None
      end
  | GORead h => match g_peek h env with Some t => Some (OTree t, (env, lk)) | None => None end
  end.
(** specification: the calls in order *)
Fixpoint s_grun (pr : profile) (p : list gop) (st : sgst) : option (list gobs * sgst) :=
  match p with
  | [] => Some ([], st)
  | o :: p' =>
      match s_gstep pr o st with
      | Some (b, st') => match s_grun pr p' st' with Some (bs, st'') => Some (b :: bs, st'') | None => None end
      | None => None
      end
  end.

(** the tree that can be read from memory at an address *)
(** specification *)
Inductive reads (m : gmem) : addr -> tree -> Prop :=
| reads_tok a n k s : m !! a = Some (S n, GCTok k s) -> reads m a (Token k s)
| reads_node a n k tl cs ts :
    m !! a = Some (S n, GCNode k tl cs) -> Forall2 (reads m) (map snd cs) ts -> reads m a (Node k ts).
(** allocation [b] can be reached from allocation [a] by following pointers *)
(** specification *)
Inductive reaches (m : gmem) : addr -> addr -> Prop :=
| reaches_refl a : reaches m a a
| reaches_step a n c x b : m !! a = Some (n, c) -> x ∈ cslots c -> reaches m x b -> reaches m a b.
(** the handles in variables *)
(** specification *)
Definition live_handles (env : list (option addr)) : list addr := filter_map id env.
(** how often an address is stored in the memory *)
(** specification *)
Definition pointers_to (m : gmem) (a : addr) : nat :=
  map_fold (fun _ c n => count_occ Nat.eq_dec (cslots c.2) a + n) 0 m.
