(** * The tree builder: src/green/builder.rs *)
From Verif Require Export Cache.

(** builder.rs:25-29 [GreenNodeBuilder].  The vector [parents] is a list with
    the innermost (last pushed) entry first; [children] is in vector order.
    [CowMut] (cow_mut.rs) is transparent: the cache is part of the state. *)
Record builder := { bcache : cache; parents : list (kind * nat); children : list (N * green) }.

(** builder.rs:33 [new] / 39-45 [with_cache] *)
Definition builder_new (c : cache) : builder := {| bcache := c; parents := []; children := [] |}.

(** builder.rs:49-52 [token].  [GreenToken::new] does not check the length; a
    token longer than u32::MAX makes a later [text_len] panic. *)
Definition b_token (env : cenv) (b : builder) (k : kind) (s : str) : res builder :=
  let '(hash, token, c) := cache_token env (bcache b) k s (children b) in
  Ok {| bcache := c; parents := parents b; children := children b ++ [(hash, token)] |}.

(** builder.rs:56-59 [start_node] *)
Definition b_start_node (b : builder) (k : kind) : res builder :=
  let len := length (children b) in
  Ok {| bcache := bcache b; parents := (k, len) :: parents b; children := children b |}.

(** builder.rs:64-68 [finish_node] *)
Definition b_finish_node (env : cenv) (pr : profile) (b : builder) : res builder :=
  match parents b with
  | [] => Err Panic
  | (k, first_child) :: ps =>
      '(hash, node, cs, c) ← cache_node env pr (bcache b) k (children b) first_child;
      Ok {| bcache := c; parents := ps; children := cs ++ [(hash, node)] |}
  end.

(** builder.rs:96-98 [checkpoint], 13-21 [Checkpoint::new]/[into_inner]: the
    +1/-1 encoding cancels (the overflow at usize::MAX children is not modelled) *)
Definition b_checkpoint (b : builder) : nat := length (children b).

(** builder.rs:103-118 [start_node_at] *)
Definition b_start_node_at (b : builder) (checkpoint : nat) (k : kind) : res builder :=
  _ ← rassert (checkpoint <=? length (children b));
  _ ← match parents b with
      | (_, first_child) :: _ => rassert (first_child <=? checkpoint)
      | [] => Ok tt
      end;
  Ok {| bcache := bcache b; parents := (k, checkpoint) :: parents b; children := children b |}.

(** builder.rs:124-130 [finish] *)
Definition b_finish (b : builder) : res green :=
  match children b with
  | [(_, e)] => if gis_node e then Ok e else Err Panic
  | _ => Err Panic
  end.

(** ** Histories of calls *)
(** the methods of green/builder.rs:31-131 *)
Inductive bop :=
| BToken (k : kind) (s : str)
| BStartNode (k : kind)
| BFinishNode
| BStartNodeAt (checkpoint : nat) (k : kind).

(** one call: green/builder.rs:49-118 *)
Definition b_op (env : cenv) (pr : profile) (b : builder) (o : bop) : res builder :=
  match o with
  | BToken k s => b_token env b k s
  | BStartNode k => b_start_node b k
  | BFinishNode => b_finish_node env pr b
  | BStartNodeAt cp k => b_start_node_at b cp k
  end.
(** a sequence of calls *)
Fixpoint b_run (env : cenv) (pr : profile) (b : builder) (ops : list bop) : res builder :=
  match ops with
  | [] => Ok b
  | o :: ops' => b' ← b_op env pr b o; b_run env pr b' ops'
  end.

(** the states a program can bring builders sharing one cache into: call a method,
    or drop/finish the builder and make a new one [with_cache] *)
(** histories of a builder and of its cache (green/builder.rs:33-45) *)
Inductive b_later (env : cenv) (pr : profile) : builder -> builder -> Prop :=
| b_later_refl b : b_later env pr b b
| b_later_op b o b' b'' : b_op env pr b o = Ok b' -> b_later env pr b' b'' -> b_later env pr b b''
| b_later_reuse b b'' : b_later env pr (builder_new (bcache b)) b'' -> b_later env pr b b''.
(** histories of a builder and of its cache (green/builder.rs:33-45) *)
Definition b_reachable (env : cenv) (pr : profile) (b : builder) : Prop :=
  b_later env pr (builder_new cache_empty) b.
(** caches that can exist: fresh, or left behind by any (also unfinished) use *)
(** histories of a builder and of its cache (green/builder.rs:33-45) *)
Definition cache_reachable (env : cenv) (pr : profile) (c : cache) : Prop :=
  b_reachable env pr (builder_new c).
(** run a whole sequence of calls on a new builder and [finish] *)
(** green/builder.rs:33-130: one use from [new] to [finish] *)
Definition b_build (env : cenv) (pr : profile) (c : cache) (ops : list bop) : res green :=
  b ← b_run env pr (builder_new c) ops; b_finish b.

(** ** Specification of the builder: a stack of half-built nodes

    No cache, hashes, indices into a flat vector, or offsets. [outer] holds
    the open nodes, innermost first, each with the elements finished before it
    was opened; [current] the elements of the innermost open node. *)
Record sbuilder := { outer : list (kind * list tree); current : list tree }.
(** specification of the builder *)
Definition sb_new : sbuilder := {| outer := []; current := [] |}.
(** number of finished elements over all open nodes except the innermost *)
(** specification of the builder *)
Definition sb_outer_count (s : sbuilder) : nat := length (concat (map snd (outer s))).

(** specification of the builder *)
Definition sb_op (s : sbuilder) (o : bop) : option sbuilder :=
  match o with
  | BToken k t => Some {| outer := outer s; current := current s ++ [Token k t] |}
  | BStartNode k => Some {| outer := (k, current s) :: outer s; current := [] |}
  | BFinishNode =>
      match outer s with
      | [] => None
      | (k, before) :: out => Some {| outer := out; current := before ++ [Node k (current s)] |}
      end
  | BStartNodeAt cp k =>
      let n := sb_outer_count s in
      if (n <=? cp) && (cp <=? n + length (current s))
      then Some {| outer := (k, take (cp - n) (current s)) :: outer s; current := drop (cp - n) (current s) |}
      else None
  end.
(** specification of the builder *)
Fixpoint sb_run (s : sbuilder) (ops : list bop) : option sbuilder :=
  match ops with
  | [] => Some s
  | o :: ops' => match sb_op s o with Some s' => sb_run s' ops' | None => None end
  end.
(** specification of the builder *)
Definition sb_pending (s : sbuilder) : list tree := concat (rev (map snd (outer s))) ++ current s.

(** texts handed to [token] *)
(** specification *)
Definition op_text (o : bop) : str := match o with BToken _ s => s | _ => [] end.
(** specification *)
Definition ops_text (ops : list bop) : str := concat (map op_text ops).

(** the calls that describe a tree *)
(** specification *)
Fixpoint tree_ops (t : tree) : list bop :=
  match t with
  | Token k s => [BToken k s]
  | Node k cs => BStartNode k :: concat (map tree_ops cs) ++ [BFinishNode]
  end.

(** ** The limit of 2^32-1 bytes: the text of a node to be closed must fit *)
(** specification: the text of the node to be closed fits *)
Definition sb_fits (s : sbuilder) (o : bop) : bool :=
  match o with BFinishNode => (blen (ttext (Node 0 (current s))) <=? u32_max)%N | _ => true end.
(** specification: the builder with the limit on lengths *)
Definition sbl_op (s : sbuilder) (o : bop) : option sbuilder :=
  if sb_fits s o then sb_op s o else None.
(** specification: the builder with the limit on lengths *)
Fixpoint sbl_run (s : sbuilder) (ops : list bop) : option sbuilder :=
  match ops with
  | [] => Some s
  | o :: ops' => match sbl_op s o with Some s' => sbl_run s' ops' | None => None end
  end.

(** what a user can see of a builder's pending work *)
(** specification *)
Definition b_pending (b : builder) : list tree := map (fun c => erase c.2) (children b).

(** calls that open and close the same nodes, using only checkpoints from [cp] on *)
(** specification *)
Fixpoint balanced (cp : nat) (depth : nat) (ops : list bop) : Prop :=
  match ops with
  | [] => depth = 0
  | BToken _ _ :: ops' => balanced cp depth ops'
  | BStartNode _ :: ops' => balanced cp (S depth) ops'
  | BFinishNode :: ops' => match depth with 0 => False | S d => balanced cp d ops' end
  | BStartNodeAt n _ :: ops' => cp <= n /\ balanced cp (S depth) ops'
  end.

(** the tree a sequence of calls and [finish] should give *)
(** specification *)
Definition spec_build (ops : list bop) : res tree :=
  match sbl_run sb_new ops with
  | Some s => match sb_pending s with
              | [Node k cs] => Ok (Node k cs)
              | _ => Err Panic
              end
  | None => Err Panic
  end.
(** number of open nodes after a sequence of calls *)
(** specification *)
Fixpoint open_nodes (n : nat) (ops : list bop) : nat :=
  match ops with
  | [] => n
  | BToken _ _ :: ops' => open_nodes n ops'
  | BFinishNode :: ops' => open_nodes (n - 1) ops'
  | _ :: ops' => open_nodes (S n) ops'
  end.
