(** * Green trees: src/green/{node,token,element}.rs

    A green element carries exactly the data stored by the code: the kind, the
    stored [text_len], and for each child the stored [rel_offset]; plus the
    address of its allocation, which the code observes in [element_id]
    (node_cache.rs:62-67) and [NodeData::key] (cursor.rs:301-307).
    [countme::Count] fields are omitted. *)
From Verif Require Export TextRange SpecFacts.

(** the address of an [ArcInner] (arc.rs:24-27) *)
Definition addr := nat.

(** node.rs:18-39 GreenNodeHead/GreenChild/GreenNodeData, token.rs:16-27
    GreenTokenHead/GreenTokenData, element.rs:10-11 GreenElement(Ref).
    A child is the pair (rel_offset, element) of [GreenChild]. *)
Inductive green :=
| GNode (a : addr) (k : kind) (tl : N) (cs : list (N * green))
| GTok (a : addr) (k : kind) (s : str).

(** the pointer inside [GreenNode] (green/node.rs:51-53) and [GreenToken] (green/token.rs:38-40) *)
Definition gaddr (g : green) : addr := match g with GNode a _ _ _ | GTok a _ _ => a end.
(** node.rs:126, token.rs:92, element.rs:74 [kind] *)
Definition gkind (g : green) : kind := match g with GNode _ k _ _ | GTok _ k _ => k end.
(** node.rs:120 [slice]: the children with their stored offsets *)
Definition gchildren (g : green) : list (N * green) :=
  match g with GNode _ _ _ cs => cs | GTok _ _ _ => [] end.
(** node.rs:138 [children], element by element *)
Definition kids (g : green) : list green := map snd (gchildren g).
(** utility_types.rs:14 [into_node] (is it the Node variant?) *)
Definition gis_node (g : green) : bool := match g with GNode _ _ _ _ => true | GTok _ _ _ => false end.

(** node.rs:132 [text_len] (stored) and token.rs:104 [TextSize::of(self.text())],
    which panics when the length does not fit in u32; element.rs:83 *)
Definition green_text_len (g : green) : res N :=
  match g with
  | GNode _ _ tl _ => Ok tl
  | GTok _ _ s => if (blen s <=? u32_max)%N then Ok (blen s) else Err Panic
  end.
(** the same without the panic; in every tree that can be built the token
    lengths fit (Properties: C01), so the two agree there *)
(** helper: the stored length (green/node.rs:132-134, green/token.rs:104-106) as a number *)
Definition glen (g : green) : N := match g with GNode _ _ tl _ => tl | GTok _ _ s => blen s end.

(** node.rs:267-271 [GreenChild::rel_range] *)
Definition rel_range (c : N * green) : range := range_at c.1 (glen c.2).

(** ** Construction *)

(** token.rs:112-116 [GreenToken::new]; the first argument is the address
    returned by the allocator *)
Definition green_token_new (a : addr) (k : kind) (s : str) : green := GTok a k s.

(** node.rs:208-216: the closure run over the children, threading [text_len] *)
Fixpoint assign_offsets (pr : profile) (text_len : N) (els : list green) : res (list (N * green) * N) :=
  match els with
  | [] => Ok ([], text_len)
  | el :: els' =>
      let rel_offset := text_len in
      l ← green_text_len el;
      text_len' ← add32 pr text_len l;
      '(cs, total) ← assign_offsets pr text_len' els';
      Ok ((rel_offset, el) :: cs, total)
  end.
(** node.rs:203-232 [GreenNode::new]; the fix-up of [text_len] after
    construction (225-229) is folded into the constructor *)
Definition green_new (pr : profile) (a : addr) (k : kind) (els : list green) : res green :=
  '(cs, total) ← assign_offsets pr 0%N els;
  Ok (GNode a k total cs).

(** ** Edits *)

(** [std::ops::Bound<usize>] and [RangeBounds] as used by [Vec::splice] *)
(** std; the argument of green/node.rs:176-184 *)
Inductive bound := Included (n : nat) | Excluded (n : nat) | Unbounded.
(** std; used by [Vec::splice] at green/node.rs:182 *)
Definition bound_start (b : bound) : nat :=
  match b with Included n => n | Excluded n => S n | Unbounded => 0 end.
(** std; used by [Vec::splice] at green/node.rs:182 *)
Definition bound_end (len : nat) (b : bound) : nat :=
  match b with Included n => S n | Excluded n => n | Unbounded => len end.

(** [Vec::splice] (std): panics if start > end or end > len *)
(** std; used at green/node.rs:182 *)
Definition vec_splice {A} (l : list A) (lo hi : bound) (repl : list A) : res (list A) :=
  let s := bound_start lo in
  let e := bound_end (length l) hi in
  if (s <=? e) && (e <=? length l) then Ok (take s l ++ repl ++ drop e l) else Err Panic.

(** node.rs:176-184 [splice_children] *)
Definition green_splice_children (pr : profile) (a : addr) (g : green) (lo hi : bound) (repl : list green) : res green :=
  children ← vec_splice (map snd (gchildren g)) lo hi repl;
  green_new pr a (gkind g) children.
(** node.rs:167-170 [insert_child]: [splice_children(index..index, once(new))] *)
Definition green_insert_child (pr : profile) (a : addr) (g : green) (index : nat) (new : green) : res green :=
  green_splice_children pr a g (Included index) (Excluded index) [new].
(** node.rs:172-174 [remove_child]: [splice_children(index..=index, empty())] *)
Definition green_remove_child (pr : profile) (a : addr) (g : green) (index : nat) : res green :=
  green_splice_children pr a g (Included index) (Included index) [].
(** node.rs:159-165 [replace_child] *)
Definition green_replace_child (pr : profile) (a : addr) (g : green) (index : nat) (new : green) : res green :=
  green_new pr a (gkind g)
    (map (fun '(i, child) => if i =? index then new else child)
         (enumerate (map snd (gchildren g)))).

(** ** Search *)

(** [slice::binary_search_by] of Rust std (1.85): the probing loop on
    (base, size), then one final comparison.  [Inl i] = [Ok(i)], [Inr i] = [Err(i)]. *)
(** std [slice::binary_search_by], used at green/node.rs:148 *)
Fixpoint bs_loop (cmp : nat -> comparison) (fuel size base : nat) : nat :=
  match fuel with
  | 0 => base
  | S fuel' =>
      if 1 <? size then
        let half := Nat.div2 size in
        let mid := base + half in
        bs_loop cmp fuel' (size - half) (match cmp mid with Gt => base | _ => mid end)
      else base
  end.
(** std; used at green/node.rs:148 *)
Definition binary_search_by (len : nat) (cmp : nat -> comparison) : nat + nat :=
  if len =? 0 then inr 0 else
  let base := bs_loop cmp len len 0 in
  match cmp base with
  | Eq => inl base
  | Lt => inr (base + 1)
  | Gt => inr base
  end.

(** node.rs:142-156 [child_at_range] *)
Definition child_at_range (g : green) (rel : range) : option (nat * N * green) :=
  let slice := gchildren g in
  let cmp := fun i => match slice !! i with
                      | Some it => range_ordering (rel_range it) rel
                      | None => Gt (* not probed *)
                      end in
  let idx := match binary_search_by (length slice) cmp with
             | inl it => it
             | inr it => it - 1 (* saturating_sub *)
             end in
  match slice !! idx with
  | Some child => if contains_range (rel_range child) rel then Some (idx, child.1, child.2) else None
  | None => None
  end.

(** ** Display, equality, hashing *)

(** node.rs:104-111, token.rs:83-87 [Display] *)
Fixpoint green_display (g : green) : str :=
  match g with
  | GTok _ _ s => s
  | GNode _ _ _ cs => concat (map (fun c => green_display c.2) cs)
  end.

(** arc.rs:443-448, 241-247 (derived on header, length, slice), node.rs:18-30
    (derived on kind, text_len; variant, rel_offset, element), token.rs:16-40
    (derived on kind; length, bytes).  Addresses are not compared. *)
Fixpoint green_eqb (g1 g2 : green) {struct g1} : bool :=
  match g1, g2 with
  | GTok _ k1 s1, GTok _ k2 s2 => (k1 =? k2)%N && (blen s1 =? blen s2)%N && bool_decide (s1 = s2)
  | GNode _ k1 tl1 cs1, GNode _ k2 tl2 cs2 =>
      (k1 =? k2)%N && (tl1 =? tl2)%N && (length cs1 =? length cs2) &&
      (fix go (l1 l2 : list (N * green)) : bool :=
         match l1, l2 with
         | [], [] => true
         | c1 :: l1', c2 :: l2' => (c1.1 =? c2.1)%N && green_eqb c1.2 c2.2 && go l1' l2'
         | _, _ => false
         end) cs1 cs2
  | _, _ => false
  end.

(** The words fed to the hasher by the derived [Hash] impls (arc.rs:452-456,
    241, node.rs:18, 25, 49; token.rs:16, 36): header fields, length, slice
    length prefix, then per child the variant tag, rel_offset and the element;
    for tokens the text (scalar values here instead of UTF-8 bytes). *)
Fixpoint green_hash_feed (g : green) : list N :=
  match g with
  | GTok _ k s => k :: blen s :: blen s :: s
  | GNode _ k tl cs =>
      k :: tl :: N.of_nat (length cs) :: N.of_nat (length cs) ::
      concat (map (fun c => (if gis_node c.2 then 0%N else 1%N) :: c.1 :: green_hash_feed c.2) cs)
  end.

(** ** Relation to the specification *)

(** forget offsets, lengths and addresses *)
(** specification: what the element is as a tree *)
Fixpoint erase (g : green) : tree :=
  match g with
  | GNode _ k _ cs => Node k (map (fun c => erase c.2) cs)
  | GTok _ k s => Token k s
  end.

(** [g] stores the right lengths and offsets everywhere, and they fit in u32 *)
(** specification: the invariant established by green/node.rs:209-222 *)
Inductive wfg : green -> Prop :=
| wfg_tok a k s : (blen s <= u32_max)%N -> wfg (GTok a k s)
| wfg_node a k tl cs :
    Forall (fun c => wfg c.2) cs ->
    tl = blen (concat (map (fun c => ttext (erase c.2)) cs)) ->
    (tl <= u32_max)%N ->
    (forall i c, cs !! i = Some c -> c.1 = blen (concat (map (fun c => ttext (erase c.2)) (take i cs)))) ->
    wfg (GNode a k tl cs).

(** every green element obtainable through the public API of green.rs *)
(** specification: made by [GreenToken::new] (green/token.rs:112-116), [GreenNode::new] (green/node.rs:203-232) and the methods on them *)
Inductive built : green -> Prop :=
| built_token a k s : (blen s <= u32_max)%N -> built (green_token_new a k s)
| built_node a k els g : Forall built els -> green_new Checked a k els = Ok g -> built g
| built_splice a g lo hi repl g' :
    built g -> Forall built repl -> green_splice_children Checked a g lo hi repl = Ok g' -> built g'
| built_replace a g i new g' :
    built g -> built new -> green_replace_child Checked a g i new = Ok g' -> built g'.

(** the green subtree at a position *)
(** specification *)
Fixpoint gsub (g : green) (p : pos) : option green :=
  match p with
  | [] => Some g
  | i :: p' => match gchildren g !! i with Some c => gsub c.2 p' | None => None end
  end.

(** addresses identify allocations: subtrees of [root] at the same address are the same *)
(** specification *)
Definition coherent (root : green) : Prop :=
  forall p q g1 g2, gsub root p = Some g1 -> gsub root q = Some g2 -> gaddr g1 = gaddr g2 -> g1 = g2.
