(** * The node cache: src/green/node_cache.rs

    The two [hashbrown] tables are bags of (stored hash, key).  What the hash
    function computes, which matching entry a probe finds, when a table grows
    (and rehashes), and which addresses the allocator returns are parameters
    collected in [cenv]; the theorems hold for all of them that satisfy
    [cenv_ok]. *)
From Verif Require Export GreenFacts.

(** green/node_cache.rs:12-15: a hashbrown [HashMap] with raw entries; here hash and key of every entry *)
Definition table := list (N * green).

(** what the code takes from outside: FxHasher (green/node_cache.rs:42-67), the allocator, and hashbrown's choice among entries *)
Record cenv := {
  (** [FxHasher]: initial state, the three kinds of [hash] calls made, [finish] *)
  hinit : N;
  hkind : N -> kind -> N;
  htext : N -> str -> N;
  hu64 : N -> N -> N;
  hfin : N -> N;
  (** [raw_entry_mut().from_hash(hash, is_match)]: [Some] = occupied, [None] = vacant.
      The [nat] is a clock, so that different calls may behave differently. *)
  probe : nat -> table -> N -> (green -> bool) -> option green;
  (** does [insert_with_hasher] grow and rehash the table? *)
  grows : nat -> table -> bool;
  (** the allocator, given the addresses in use *)
  alloc : nat -> list addr -> addr;
}.

(** hashbrown: an occupied entry is an entry of the table that matches; a vacant
    one means that no entry inserted under that hash matches.
    allocator: the returned address is not in use *)
(** assumption on the environment *)
Definition cenv_ok (env : cenv) : Prop :=
  (forall t tab h eq,
     match probe env t tab h eq with
     | Some e => (exists h', (h', e) ∈ tab) /\ eq e = true
     | None => forall e, (h, e) ∈ tab -> eq e = false
     end) /\
  (forall t used, alloc env t used ∉ used).

(** node_cache.rs:37-40 [NodeCache] (plus the clock) *)
Record cache := { nodes : table; tokens : table; clock : nat }.
(** [NodeCache::default()] *)
(** green/node_cache.rs:36-40 [derive(Default)] *)
Definition cache_empty : cache := {| nodes := []; tokens := []; clock := 0 |}.

(** node_cache.rs:42-47 [token_hash]; also the inline copy at 134-139 *)
Definition token_hash (env : cenv) (k : kind) (s : str) : N :=
  hfin env (htext env (hkind env (hinit env) k) s).
(** node_cache.rs:49-60 [node_hash] (on tokens: [token_hash]) *)
Fixpoint node_hash (env : cenv) (g : green) : N :=
  match g with
  | GTok _ k s => token_hash env k s
  | GNode _ k _ cs =>
      hfin env (fold_left (fun h c => hu64 env h (node_hash env c.2)) cs (hkind env (hinit env) k))
  end.
(** node_cache.rs:86-97: hash from the children's known hashes; [None] when a child has hash 0 *)
Fixpoint hash_children (env : cenv) (h : N) (cs : list (N * green)) : option N :=
  match cs with
  | [] => Some h
  | c :: cs' => if (c.1 =? 0)%N then None else hash_children env (hu64 env h c.1) cs'
  end.

(** hashbrown [insert_with_hasher]: maybe rehash everything, then insert *)
(** used at green/node_cache.rs:125, 150 *)
Definition table_insert (env : cenv) (t : nat) (tab : table) (h : N) (g : green) : table :=
  (h, g) :: if grows env t tab then map (fun e => (node_hash env e.2, e.2)) tab else tab.

(** all addresses in use by an element *)
(** helper: the addresses the allocator must not return *)
Fixpoint gaddrs (g : green) : list addr :=
  match g with
  | GTok a _ _ => [a]
  | GNode a _ _ cs => a :: concat (map (fun c => gaddrs c.2) cs)
  end.
(** helper: the addresses the allocator must not return *)
Definition used_addrs (c : cache) (children : list (N * green)) : list addr :=
  concat (map (fun e => gaddrs e.2) (nodes c ++ tokens c ++ children)).

(** node_cache.rs:107-116: the match predicate on a cached node *)
Definition node_matches (k : kind) (children_ref : list (N * green)) (n : green) : bool :=
  (gkind n =? k)%N && (length (gchildren n) =? length children_ref) &&
  bool_decide (map gaddr (kids n) = map (fun c => gaddr c.2) children_ref).

(** node_cache.rs:70-131 [NodeCache::node]; returns the hash, the node, the
    remaining [children] vector and the cache *)
Definition cache_node (env : cenv) (pr : profile) (c : cache) (k : kind)
    (children : list (N * green)) (first_child : nat) : res (N * green * list (N * green) * cache) :=
  let build_node := fun _ : unit =>
    green_new pr (alloc env (clock c) (used_addrs c children)) k (map snd (drop first_child children)) in
  let rest := take first_child children in
  let tick := fun ns => {| nodes := ns; tokens := tokens c; clock := S (clock c) |} in
  if length children <? first_child then Err Panic else
  let children_ref := drop first_child children in
  if 3 <? length children_ref then
    node ← build_node tt; Ok (0%N, node, rest, tick (nodes c))
  else
  match hash_children env (hkind env (hinit env) k) children_ref with
  | None => node ← build_node tt; Ok (0%N, node, rest, tick (nodes c))
  | Some h =>
      let hash := hfin env h in
      match probe env (clock c) (nodes c) hash (node_matches k children_ref) with
      | Some node => Ok (hash, node, rest, tick (nodes c))
      | None =>
          node ← build_node tt;
          Ok (hash, node, rest, tick (table_insert env (clock c) (nodes c) hash node))
      end
  end.

(** node_cache.rs:144: the match predicate on a cached token *)
Definition token_matches (k : kind) (s : str) (t : green) : bool :=
  match t with GTok _ k' s' => (k' =? k)%N && bool_decide (s' = s) | GNode _ _ _ _ => false end.

(** node_cache.rs:133-156 [NodeCache::token]; [children] are the elements held
    by the calling builder (only used for the addresses in use) *)
Definition cache_token (env : cenv) (c : cache) (k : kind) (s : str) (children : list (N * green))
    : N * green * cache :=
  let hash := token_hash env k s in
  let tick := fun ts => {| nodes := nodes c; tokens := ts; clock := S (clock c) |} in
  match probe env (clock c) (tokens c) hash (token_matches k s) with
  | Some token => (hash, token, tick (tokens c))
  | None =>
      let token := green_token_new (alloc env (clock c) (used_addrs c children)) k s in
      (hash, token, tick (table_insert env (clock c) (tokens c) hash token))
  end.
