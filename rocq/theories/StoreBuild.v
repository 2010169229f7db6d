(** * Builders and caches on the memory of green trees

    Cache.v and Builder.v treat green elements as values.  Here the builder
    (src/green/builder.rs) and the cache (src/green/node_cache.rs) hold counted
    pointers into the memory of GreenStore.v, whose allocator may reuse freed
    addresses; the cache compares children by address.

    Programs may use any number of caches, builders and handles and catch
    panics.  Two builders that borrow the same cache may be used in turns here,
    which the borrow checker forbids: the theorems cover more programs. *)
From Verif Require Export GreenStore Builder.

(** what the code takes from outside: FxHasher, hashbrown's choices
    (node_cache.rs:12, 42-67, 107, 125) and the order in which a table is dropped *)
Record menv := {
  (** [FxHasher]: initial state, the three kinds of [hash] calls, [finish] *)
  m_hinit : N;
  m_hkind : N -> kind -> N;
  m_htext : N -> str -> N;
  m_hu64 : N -> N -> N;
  m_hfin : N -> N;
  (** [raw_entry_mut().from_hash(hash, is_match)]; the first argument is the clock *)
  m_probe : nat -> list (N * addr) -> N -> (addr -> bool) -> option addr;
  (** does [insert_with_hasher] grow and rehash the table? *)
  m_grows : nat -> list (N * addr) -> bool;
  (** in which order does dropping a table drop its entries? *)
  m_order : nat -> list (N * addr) -> list (N * addr);
}.
(** assumption on the environment: an occupied entry is an entry of the table
    that matches; if there is none, no entry inserted under that hash matches;
    dropping a table drops each entry once *)
Definition menv_ok (E : menv) : Prop :=
  (forall t tab h eq,
     match m_probe E t tab h eq with
     | Some a => a ∈ map snd tab /\ eq a = true
     | None => forall a, (h, a) ∈ tab -> eq a = false
     end) /\
  (forall t tab, m_order E t tab ≡ₚ tab).

(** node_cache.rs:36-40 [NodeCache]; [A] is how elements are referred to *)
Record pcache (A : Type) := PC { pc_nodes : list (N * A); pc_tokens : list (N * A) }.
Arguments PC {A}. Arguments pc_nodes {A}. Arguments pc_tokens {A}.
(** cow_mut.rs:1-5 [CowMut] *)
Inductive pcow (A : Type) := Owned (c : pcache A) | Borrowed (i : nat).
Arguments Owned {A}. Arguments Borrowed {A}.
(** builder.rs:25-29 [GreenNodeBuilder]; [parents] with the last pushed first *)
Record pbuilder (A : Type) := PB { pb_cache : pcow A; pb_parents : list (kind * nat); pb_children : list (N * A) }.
Arguments PB {A}. Arguments pb_cache {A}. Arguments pb_parents {A}. Arguments pb_children {A}.
(** helper: the elements a cache holds (node_cache.rs:37-40) *)
Definition pc_elems {A} (c : pcache A) : list A := map snd (pc_nodes c) ++ map snd (pc_tokens c).
(** helper: the elements a builder holds (builder.rs:25-29) *)
Definition pb_elems {A} (b : pbuilder A) : list A :=
  match pb_cache b with Owned c => pc_elems c | Borrowed _ => [] end ++ map snd (pb_children b).

(** ** Monad *)
(** helper: a moment passes *)
Definition gs_tick : gsm nat := fun h => (Ok (gck h), GST (gmm h) (S (gck h))).
(** helper: look at the memory *)
Definition gs_mem : gsm gmem := fun h => (Ok (gmm h), h).
(** helper: run a call and remember whether it panicked *)
Definition gs_try {A} (m : gsm A) : gsm (option A) := fun h =>
  match m h with
  | (Ok a, h') => (Ok (Some a), h')
  | (Err Panic, h') => (Ok None, h')
  | (Err e, h') => (Err e, h')
  end.

Section build.
Context (E : menv) (al : nat -> gset addr -> addr) (pr : profile).

(** ** The cache: src/green/node_cache.rs *)
(** node_cache.rs:42-47 [token_hash], and 134-139 *)
Definition ms_token_hash (k : kind) (s : str) : N := m_hfin E (m_htext E (m_hkind E (m_hinit E) k) s).
(** node_cache.rs:49-60 [node_hash], reading the memory; [depth] bounds the nesting *)
Fixpoint gs_hash_rec (depth : nat) (a : addr) : gsm N :=
  match depth with
  | 0 => gs_err Diverge
  | S depth' =>
      c ← gs_cell a;
      match c with
      | GCTok k s => mret (ms_token_hash k s)
      | GCNode k _ cs =>
          hs ← gs_map (gs_hash_rec depth') (map snd cs);
          mret (m_hfin E (fold_left (m_hu64 E) hs (m_hkind E (m_hinit E) k)))
      end
  end.
(** node_cache.rs:49-60, deep enough for every tree in memory *)
Definition gs_hash (a : addr) : gsm N := fun h => gs_hash_rec (S (size (gmm h))) a h.

(** hashbrown [from_hash] (node_cache.rs:107, 141): the match closure may be
    called on any entry of the table and reads it, so all entries must be alive *)
Definition gs_probe (tab : list (N * addr)) (hash : N) (matches : gcell -> bool) : gsm (option addr) :=
  t ← gs_tick;
  _ ← gs_each (fun e => _ ← gs_cell e.2; mret ()) tab;
  m ← gs_mem;
  mret (m_probe E t tab hash (fun a => match m !! a with Some (_, c) => matches c | None => false end)).
(** hashbrown [insert_with_hasher] (node_cache.rs:125, 150): maybe hash all entries again, then insert *)
Definition gs_insert_entry (tab : list (N * addr)) (hash : N) (a : addr) : gsm (list (N * addr)) :=
  t ← gs_tick;
  if m_grows E t tab then
    tab' ← gs_map (fun e => h ← gs_hash e.2; mret (h, e.2)) tab;
    mret ((hash, a) :: tab')
  else mret ((hash, a) :: tab).
(** drop of a table (hashbrown); used when a [NodeCache] is dropped (node_cache.rs:37-40) *)
Definition gs_drop_table (tab : list (N * addr)) : gsm unit :=
  t ← gs_tick; gs_each gs_drop (map snd (m_order E t tab)).
(** node_cache.rs:37-40: drop of a [NodeCache], field by field *)
Definition gs_drop_cache (c : pcache addr) : gsm unit :=
  _ ← gs_drop_table (pc_nodes c); gs_drop_table (pc_tokens c).

(** node_cache.rs:86-97: the hash from the children's known hashes *)
Fixpoint ms_hash_children (h : N) (cs : list (N * addr)) : option N :=
  match cs with
  | [] => Some h
  | c :: cs' => if (c.1 =? 0)%N then None else ms_hash_children (m_hu64 E h c.1) cs'
  end.
(** node_cache.rs:107-116: does a cached node match? [element_id] (62-67) is the address *)
Definition ms_node_matches (k : kind) (children_ref : list (N * addr)) (c : gcell) : bool :=
  match c with
  | GCNode k' _ cs => (k' =? k)%N && (length cs =? length children_ref) && bool_decide (map snd cs = map snd children_ref)
  | GCTok _ _ => false
  end.
(** node_cache.rs:70-131 [NodeCache::node].  [None]: a panic, after which
    [children] (the drained part is gone, std [Drain]) and the cache are as returned *)
Definition gs_cache_node (c : pcache addr) (k : kind) (children : list (N * addr)) (first_child : nat)
    : gsm (option (N * addr) * list (N * addr) * pcache addr) :=
  if length children <? first_child then mret (None, children, c) else
  let rest := take first_child children in
  let children_ref := drop first_child children in
  let build_node := gs_try (gs_new al pr k (map Own (map snd children_ref))) in
  let uncached :=
    node ← build_node;
    mret (match node with Some a => Some (0%N, a) | None => None end, rest, c) in
  if 3 <? length children_ref then uncached
  else
  match ms_hash_children (m_hkind E (m_hinit E) k) children_ref with
  | None => uncached
  | Some h =>
      let hash := m_hfin E h in
      entry ← gs_probe (pc_nodes c) hash (ms_node_matches k children_ref);
      match entry with
      | Some a =>
          _ ← gs_each gs_drop (map snd children_ref);
          _ ← gs_clone a;
          mret (Some (hash, a), rest, c)
      | None =>
          node ← build_node;
          match node with
          | None => mret (None, rest, c)
          | Some a =>
              _ ← gs_clone a;
              ns ← gs_insert_entry (pc_nodes c) hash a;
              mret (Some (hash, a), rest, PC ns (pc_tokens c))
          end
      end
  end.
(** node_cache.rs:144: does a cached token match? *)
Definition ms_token_matches (k : kind) (s : str) (c : gcell) : bool :=
  match c with GCTok k' s' => (k' =? k)%N && bool_decide (s' = s) | GCNode _ _ _ => false end.
(** node_cache.rs:133-156 [NodeCache::token] *)
Definition gs_cache_token (c : pcache addr) (k : kind) (s : str) : gsm (N * addr * pcache addr) :=
  let hash := ms_token_hash k s in
  entry ← gs_probe (pc_tokens c) hash (ms_token_matches k s);
  match entry with
  | Some a => _ ← gs_clone a; mret (hash, a, c)
  | None =>
      a ← gs_token al k s;
      _ ← gs_clone a;
      ts ← gs_insert_entry (pc_tokens c) hash a;
      mret (hash, a, PC (pc_nodes c) ts)
  end.

(** ** The builder: src/green/builder.rs *)
(** one call of a method (builder.rs:49-68, 103-118) on the cache, [parents] and
    [children]; the [bool] tells whether it returned, on [false] it panicked
    and left the builder as given *)
Definition gs_bop (o : bop) (c : pcache addr) (ps : list (kind * nat)) (cs : list (N * addr))
    : gsm (bool * pcache addr * list (kind * nat) * list (N * addr)) :=
  match o with
  | BToken k s =>
      '(hash, a, c') ← gs_cache_token c k s;
      mret (true, c', ps, cs ++ [(hash, a)])
  | BStartNode k => mret (true, c, (k, length cs) :: ps, cs)
  | BFinishNode =>
      match ps with
      | [] => mret (false, c, ps, cs)
      | (k, first_child) :: ps' =>
          '(r, rest, c') ← gs_cache_node c k cs first_child;
          match r with
          | Some e => mret (true, c', ps', rest ++ [e])
          | None => mret (false, c', ps', rest)
          end
      end
  | BStartNodeAt checkpoint k =>
      if (checkpoint <=? length cs) && match ps with (_, first_child) :: _ => first_child <=? checkpoint | [] => true end
      then mret (true, c, (k, checkpoint) :: ps, cs)
      else mret (false, c, ps, cs)
  end.
(** drop of a builder (builder.rs:25-29), field by field *)
Definition gs_drop_builder (b : pbuilder addr) : gsm unit :=
  _ ← match pb_cache b with Owned c => gs_drop_cache c | Borrowed _ => mret () end;
  gs_each gs_drop (map snd (pb_children b)).
(** builder.rs:124-130 [finish]: takes the builder; what is not returned is dropped, also when it panics *)
Definition gs_finish (b : pbuilder addr) : gsm addr :=
  match pb_children b with
  | [(_, a)] =>
      c ← gs_cell a;
      match c with
      | GCNode _ _ _ => gs_finally (mret a) (gs_drop_builder (PB (pb_cache b) (pb_parents b) []))
      | GCTok _ _ => gs_finally (gs_err Panic) (gs_drop_builder b)
      end
  | _ => gs_finally (gs_err Panic) (gs_drop_builder b)
  end.

(** ** Programs with handles, caches and builders *)
(** a program: variables for handles, caches (node_cache.rs:37-40) and builders (builder.rs:25-29), and the memory *)
Record world := W {
  w_env : list (option addr); w_caches : list (option (pcache addr));
  w_builders : list (option (pbuilder addr)); w_mem : gst }.
(** one call of the client *)
(** the functions of green/node.rs cited at [gop], and green/builder.rs:31-131 *)
Inductive wop :=
| WG (o : gop)                  (** a call on handles *)
| WNewCache                     (** [NodeCache::default()], node_cache.rs:36 *)
| WDropCache (c : nat)
| WNewBuilder                   (** [GreenNodeBuilder::new], builder.rs:33-35 *)
| WWithCache (c : nat)          (** [GreenNodeBuilder::with_cache], builder.rs:39-45 *)
| WCall (b : nat) (o : bop)     (** a method of builder [b] *)
| WFinish (b : nat)             (** [finish], builder.rs:124-130: a new handle *)
| WDropBuilder (b : nat).

(** cow_mut.rs:7-15 [deref]: the cache a builder uses, if it still exists *)
Definition cow_get {A} (caches : list (option (pcache A))) (b : pbuilder A) : option (pcache A) :=
  match pb_cache b with Owned c => Some c | Borrowed i => g_peek i caches end.
(** cow_mut.rs:17-24 [deref_mut]: the caches and the builder's field after the cache has changed *)
Definition cow_put {A} (caches : list (option (pcache A))) (b : pbuilder A) (c : pcache A) : list (option (pcache A)) * pcow A :=
  match pb_cache b with Owned _ => (caches, Owned c) | Borrowed i => (<[i := Some c]> caches, Borrowed i) end.

(** one call; panics are caught ([std::panic::catch_unwind]) *)
(** green/builder.rs:31-131 and the functions cited at [gop] *)
Definition w_step (o : wop) (w : world) : res (gobs * world) :=
  let '(W env caches builders st) := w in
  match o with
  | WG o => '(b, env', st') ← g_step al pr o env st; Ok (b, W env' caches builders st')
  | WNewCache => Ok (OUnit, W env (caches ++ [Some (PC [] [])]) builders st)
  | WDropCache i =>
      match g_peek i caches with
      | Some c => match gs_drop_cache c st with
                  | (Ok _, st') => Ok (OUnit, W env (<[i := None]> caches) builders st')
                  | (Err e, _) => Err e
                  end
      | None => g_reject
      end
  | WNewBuilder => Ok (OUnit, W env caches (builders ++ [Some (PB (Owned (PC [] [])) [] [])]) st)
  | WWithCache i =>
      match g_peek i caches with
      | Some _ => Ok (OUnit, W env caches (builders ++ [Some (PB (Borrowed i) [] [])]) st)
      | None => g_reject
      end
  | WCall i o =>
      match g_peek i builders with
      | Some b =>
          match cow_get caches b with
          | Some c =>
              match gs_bop o c (pb_parents b) (pb_children b) st with
              | (Ok (ok, c', ps, cs), st') =>
                  let '(caches', cow) := cow_put caches b c' in
                  Ok (if ok : bool then OUnit else OPanic, W env caches' (<[i := Some (PB cow ps cs)]> builders) st')
              | (Err e, _) => Err e
              end
          | None => g_reject
          end
      | None => g_reject
      end
  | WFinish i =>
      match g_peek i builders with
      | Some b =>
          match cow_get caches b with
          | Some _ =>
              '(r, env', st') ← g_call (gs_finish b) env st;
              Ok (r, W env' caches (<[i := None]> builders) st')
          | None => g_reject
          end
      | None => g_reject
      end
  | WDropBuilder i =>
      match g_peek i builders with
      | Some b => match gs_drop_builder b st with
                  | (Ok _, st') => Ok (OUnit, W env caches (<[i := None]> builders) st')
                  | (Err e, _) => Err e
                  end
      | None => g_reject
      end
  end.
(** helper: the calls in order *)
Fixpoint w_run (p : list wop) (w : world) : res (list gobs * world) :=
  match p with
  | [] => Ok ([], w)
  | o :: p' =>
      '(b, w') ← w_step o w;
      '(bs, w'') ← w_run p' w';
      Ok (b :: bs, w'')
  end.
End build.
(** helper: nothing has happened yet *)
Definition world0 : world := W [] [] [] (GST ∅ 0).

(** ** Specification: the same programs over trees, without caches *)
(** specification: one call on the stack of half-built nodes (Builder.v): the builder after it,
    whether it returned, and the nodes that leaked *)
Definition s_bop (pr : profile) (s : sbuilder) (o : bop) : sbuilder * bool * list tree :=
  match o, outer s with
  | BFinishNode, (k, before) :: out =>
      if gbuildable pr (current s) then ({| outer := out; current := before ++ [Node k (current s)] |}, true, [])
      else ({| outer := out; current := before |}, false, [Node k (gwritten pr [] (current s))])
  | _, _ => match sb_op s o with Some s' => (s', true, []) | None => (s, false, []) end
  end.
(** specification: a cache is only there or not; a builder owns a cache or borrows one *)
Record sworld := SW {
  sw_env : list (option tree); sw_leaks : list tree;
  sw_caches : list (option unit); sw_builders : list (option (option nat * sbuilder)) }.
(** specification: can the builder still use its cache? *)
Definition s_alive (caches : list (option unit)) (own : option nat) : bool :=
  match own with None => true | Some i => match g_peek i caches with Some _ => true | None => false end end.
(** specification: one call; [None] when the program would not compile *)
Definition sw_step (pr : profile) (o : wop) (w : sworld) : option (gobs * sworld) :=
  let '(SW env lk caches builders) := w in
  match o with
  | WG o => match s_gstep pr o (env, lk) with Some (b, (env', lk')) => Some (b, SW env' lk' caches builders) | None => None end
  | WNewCache => Some (OUnit, SW env lk (caches ++ [Some ()]) builders)
  | WDropCache i => match g_peek i caches with Some _ => Some (OUnit, SW env lk (<[i := None]> caches) builders) | None => None end
  | WNewBuilder => Some (OUnit, SW env lk caches (builders ++ [Some (None, sb_new)]))
  | WWithCache i =>
      match g_peek i caches with Some _ => Some (OUnit, SW env lk caches (builders ++ [Some (Some i, sb_new)])) | None => None end
  | WCall i o =>
      match g_peek i builders with
      | Some (own, s) =>
          if s_alive caches own then
            let '(s', ok, lk') := s_bop pr s o in
            Some (if ok : bool then OUnit else OPanic, SW env (lk' ++ lk) caches (<[i := Some (own, s')]> builders))
          else None
      | None => None
      end
  | WFinish i =>
      match g_peek i builders with
      | Some (own, s) =>
          if s_alive caches own then
            Some match sb_pending s with
                 | [Node k cs] => (OHandle, SW (env ++ [Some (Node k cs)]) lk caches (<[i := None]> builders))
                 | _ => (OPanic, SW (env ++ [None]) lk caches (<[i := None]> builders))
                 end
          else None
      | None => None
      end
  | WDropBuilder i => match g_peek i builders with Some _ => Some (OUnit, SW env lk caches (<[i := None]> builders)) | None => None end
  end.
(** specification: the calls in order *)
Fixpoint sw_run (pr : profile) (p : list wop) (w : sworld) : option (list gobs * sworld) :=
  match p with
  | [] => Some ([], w)
  | o :: p' =>
      match sw_step pr o w with
      | Some (b, w') => match sw_run pr p' w' with Some (bs, w'') => Some (b :: bs, w'') | None => None end
      | None => None
      end
  end.
(** specification: nothing has happened yet *)
Definition sworld0 : sworld := SW [] [] [] [].
(** specification: the pointers held by a program: handles, cache entries, builders' elements *)
Definition w_roots (w : world) : list addr :=
  live_handles (w_env w) ++ concat (map pc_elems (filter_map id (w_caches w))) ++ concat (map pb_elems (filter_map id (w_builders w))).
(** specification: no node in the tree has more than three children (node_cache.rs:76) *)
Fixpoint small (t : tree) : bool :=
  match t with Token _ _ => true | Node _ cs => (length cs <=? 3) && forallb small cs end.
(** specification: both builders use the same cache *)
Definition same_cache {A} (caches : list (option (pcache A))) (i1 i2 : nat) (b1 b2 : pbuilder A) : Prop :=
  i1 = i2 /\ cow_get caches b1 <> None \/
  exists j c, pb_cache b1 = Borrowed j /\ pb_cache b2 = Borrowed j /\ g_peek j caches = Some c.
