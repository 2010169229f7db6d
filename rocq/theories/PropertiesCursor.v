(** * Properties of navigation, traversal and search in immutable trees (C03, C13-C26)

    [root] is any green tree of the API ([built]); [coherent root] says that
    distinct allocations in it have distinct addresses.  Every tree made by a
    builder has both ([builder_built]).  [cursor_at root p] is the element at
    position [p]; C13 shows that these are exactly the elements that can be
    reached from the root, and that they are what the specification tree
    [erase root] has at [p]. *)
From Verif Require Import CursorMore PropertiesBuilder.

(** the tree of the examples, made by the builder:
    [1]( [2]("a" "b€")  [5]()  [5]()  " "  [2]("a" "b€") ) *)
Definition ex_ops2 : list bop :=
  [BStartNode 1; BStartNode 2; BToken 3 [97]; BToken 4 [98; 8364]; BFinishNode;
   BStartNode 5; BFinishNode; BStartNode 5; BFinishNode; BToken 6 [32];
   BStartNode 2; BToken 3 [97]; BToken 4 [98; 8364]; BFinishNode; BFinishNode]%N.
(** example *)
Definition ex_g : green := Eval vm_compute in match b_build ex_env Checked cache_empty ex_ops2 with Ok g => g | Err _ => GTok 0 0 [] end.
Lemma ex_g_ok : built ex_g /\ coherent ex_g /\ gis_node ex_g = true.
Proof. apply (builder_built ex_env cache_empty ex_ops2 ex_g ex_env_ok ex_cache_reachable). vm_compute. reflexivity. Qed.
(** example *)
Definition ex_c (p : pos) : cursor := default (CRoot ex_g) (cursor_at ex_g p).
Lemma ex_c_at : forall p, p ∈ positions (erase ex_g) -> cursor_at ex_g p = Some (ex_c p).
Proof.
  intros p Hp. unfold ex_c. apply elem_of_positions in Hp. destruct (cursor_at_is_Some ex_g p Hp) as [c Hc]. by rewrite Hc.
Qed.

(** ** C03 *)
Theorem c03_children_tile root p c :
  built root -> cursor_at root p = Some c -> c_is_node c = true ->
  exists l rs a b, children_with_tokens c = Ok l /\ c_text_range c = Ok (TR a b) /\
    Forall2 (fun d r => c_text_range d = Ok r) l rs /\ tiles a rs b.
Proof. intros H. apply children_tile. by apply built_wfg. Qed.
Print Assumptions c03_children_tile.
Example c03_nonvacuous :
  exists l, children_with_tokens (ex_c []) = Ok l /\
    map c_text_range l = map Ok [TR 0 5; TR 5 5; TR 5 5; TR 5 6; TR 6 11].
Proof. eexists. split; [vm_compute; reflexivity|]. vm_compute. reflexivity. Qed.

(** ** C13 *)
(** the elements reachable from the root are exactly the positions of the tree *)
Theorem c13_reachable_iff_position root c :
  built root -> (nav_reach root c <-> exists p, cursor_at root p = Some c).
Proof.
  intros H%built_wfg. split; [by apply nav_reach_in|]. intros [p Hp]. by eapply nav_reach_all.
Qed.
Print Assumptions c13_reachable_iff_position.
(** at every position there is an element, and it has the kind, text and range the specification says *)
Theorem c13_exact root p t :
  built root -> tsub (erase root) p = Some t ->
  exists c a b, cursor_at root p = Some c /\ erase (c_green c) = t /\ c_kind c = tkind t /\
    c_text_range c = Ok (TR a b) /\ trange (erase root) p = Some (a, b) /\
    is_slice (green_display root) a b (green_display (c_green c)) /\ green_display (c_green c) = ttext t.
Proof.
  intros H%built_wfg Ht. destruct (cursor_at_is_Some root p) as [c Hc]; [by eexists|].
  exists c, (c_offset c), (c_offset c + blen (gtext (c_green c)))%N.
  pose proof (cursor_at_tsub _ _ _ Hc) as Ht'. assert (erase (c_green c) = t) as He by congruence.
  split; [done|]. split; [done|]. split; [unfold c_kind; rewrite <- He; by destruct (c_green c)|].
  split; [by apply (c_text_range_at root H p)|].
  rewrite (crange_trange root H p c Hc). split; [done|].
  rewrite !green_display_text. unfold gtext. rewrite He. split; [|done].
  rewrite (cursor_at_off root H p c Hc). by apply tbefore_is_slice.
Qed.
Print Assumptions c13_exact.
(** different positions are different elements *)
Theorem c13_positions_distinct root p q c :
  cursor_at root p = Some c -> cursor_at root q = Some c -> p = q.
Proof. intros H1 H2. apply cursor_at_path in H1 as [<- _]. by apply cursor_at_path in H2 as [<- _]. Qed.
Print Assumptions c13_positions_distinct.
(** no navigation function fails (in particular by u32 overflow) on a reachable element *)
Theorem c13_navigation_total root f c :
  built root -> nav_fn f -> nav_reach root c -> exists o, f c = Ok o.
Proof.
  intros H%built_wfg Hf Hc. destruct (nav_fn_total root f c H Hf) as (o&Ho&_); [by apply nav_reach_in|]. eauto.
Qed.
Print Assumptions c13_navigation_total.
Example c13_nonvacuous :
  tsub (erase ex_g) [4; 1] = Some (Token 4 [98; 8364]%N) /\ c_text_range (ex_c [4; 1]) = Ok (TR 7 11) /\
  nav_reach ex_g (ex_c [4; 1]).
Proof.
  split; [vm_compute; reflexivity|]. split; [vm_compute; reflexivity|].
  apply (nav_reach_all ex_g [4; 1]); [apply built_wfg, ex_g_ok|vm_compute; reflexivity].
Qed.

(** ** C14 *)
Theorem c14_child_parent_index root p c i d :
  cursor_at root p = Some c -> cursor_at root (p ++ [i]) = Some d -> c_parent d = Some c /\ c_index d = i.
Proof. intros Hc Hd. destruct (sib_shape root p i d c Hd Hc) as [-> _]. done. Qed.
Print Assumptions c14_child_parent_index.
Theorem c14_root_has_no_parent root c : cursor_at root [] = Some c -> c_parent c = None.
Proof. by intros [= <-]. Qed.
Print Assumptions c14_root_has_no_parent.
Theorem c14_child_accessors root p c :
  built root -> cursor_at root p = Some c ->
  let cs := tchildren (erase (c_green c)) in
  (exists o, is_first_from is_node cs 0 o /\ answer root p (first_child c) o) /\
  (forall m, exists o, is_first_from (fun t => m (tkind t) && is_node t) cs 0 o /\ answer root p (first_child_by_kind m c) o) /\
  (exists o, is_last_below is_node cs (length cs) o /\ answer root p (last_child c) o) /\
  (exists o, is_first_from any cs 0 o /\ answer root p (first_child_or_token c) o) /\
  (forall m, exists o, is_first_from (fun t => m (tkind t)) cs 0 o /\ answer root p (first_child_or_token_by_kind m c) o) /\
  (exists o, is_last_below any cs (length cs) o /\ answer root p (last_child_or_token c) o).
Proof.
  intros H%built_wfg Hc cs. split_and!.
  - by apply first_child_at.
  - intros m. by apply first_child_by_kind_at.
  - by apply last_child_at.
  - by apply first_child_or_token_ans.
  - intros m. by apply first_child_or_token_by_kind_at.
  - unfold answer, cs. rewrite (last_child_or_token_at root H p c Hc), length_erase_children.
    pose proof (length_erase_children (c_green c)) as El. destruct (length (gchildren (c_green c))) as [|n] eqn:E.
    + exists None. split; [|done]. intros k x Hk; lia.
    + exists (Some n). split; [|done]. split; [lia|]. split; [|intros k x Hk; lia].
      destruct (lookup_lt_is_Some_2 (tchildren (erase (c_green c))) n) as [x Hx]; [lia|]. eauto.
Qed.
Print Assumptions c14_child_accessors.
Example c14_nonvacuous :
  last_child (ex_c []) = Ok (Some (ex_c [4])) /\ first_child (ex_c [4]) = Ok None /\
  first_child_by_kind (N.eqb 5) (ex_c []) = Ok (Some (ex_c [1])) /\
  first_child_or_token_by_kind (N.eqb 6) (ex_c []) = Ok (Some (ex_c [3])) /\
  last_child_or_token (ex_c [4]) = Ok (Some (ex_c [4; 1])).
Proof. vm_compute. done. Qed.

(** ** C15 *)
Theorem c15_siblings_exact root p i c c0 :
  built root -> cursor_at root p = Some c0 -> cursor_at root (p ++ [i]) = Some c ->
  let cs := tchildren (erase (c_green c0)) in
  (exists o, is_first_from is_node cs (S i) o /\ answer root p (next_sibling c) o) /\
  (forall m, exists o, is_first_from (fun t => m (tkind t) && is_node t) cs (S i) o /\ answer root p (next_sibling_by_kind m c) o) /\
  (exists o, is_last_below is_node cs i o /\ answer root p (prev_sibling c) o) /\
  (exists o, is_first_from any cs (S i) o /\ answer root p (next_sibling_or_token c) o) /\
  (forall m, exists o, is_first_from (fun t => m (tkind t)) cs (S i) o /\ answer root p (next_sibling_or_token_by_kind m c) o) /\
  (exists o, is_last_below any cs i o /\ answer root p (prev_sibling_or_token c) o).
Proof.
  intros H%built_wfg H0 Hc cs. split_and!.
  - by apply next_sibling_at'.
  - by apply next_sibling_by_kind_at'.
  - by apply prev_sibling_at'.
  - by apply next_sibling_or_token_ans.
  - by apply next_sibling_or_token_by_kind_at'.
  - by apply prev_sibling_or_token_ans.
Qed.
Print Assumptions c15_siblings_exact.
Theorem c15_root_has_no_siblings g :
  next_sibling (new_root g) = Ok None /\ prev_sibling (new_root g) = Ok None /\
  next_sibling_or_token (new_root g) = Ok None /\ prev_sibling_or_token (new_root g) = Ok None /\
  (forall m, next_sibling_by_kind m (new_root g) = Ok None) /\
  (forall m, next_sibling_or_token_by_kind m (new_root g) = Ok None).
Proof. apply root_no_siblings. Qed.
Print Assumptions c15_root_has_no_siblings.
Theorem c15_next_prev_inverse root c d :
  built root -> nav_reach root c -> nav_reach root d ->
  (next_sibling_or_token c = Ok (Some d) <-> prev_sibling_or_token d = Ok (Some c)) /\
  (c_is_node c = true -> c_is_node d = true ->
   (next_sibling c = Ok (Some d) <-> prev_sibling d = Ok (Some c))).
Proof.
  intros H%built_wfg Hc%nav_reach_in Hd%nav_reach_in; [|done|done]. split; [|intros Hnc Hnd]; split.
  - by apply (next_sibling_tok_inv root).
  - by apply (prev_sibling_tok_inv root).
  - by apply (next_sibling_inv root).
  - by apply (prev_sibling_inv root).
Qed.
Print Assumptions c15_next_prev_inverse.
Example c15_nonvacuous :
  next_sibling (ex_c [2]) = Ok (Some (ex_c [4])) /\ prev_sibling (ex_c [4]) = Ok (Some (ex_c [2])) /\
  next_sibling_or_token (ex_c [2]) = Ok (Some (ex_c [3])) /\ next_sibling_by_kind (N.eqb 2) (ex_c [0]) = Ok (Some (ex_c [4])) /\
  next_sibling (ex_c [4]) = Ok None /\ prev_sibling_or_token (ex_c [0]) = Ok None.
Proof. vm_compute. done. Qed.

(** ** C16 *)
(** [yields]: exactly these elements in this order, then [None] for ever *)
Theorem c16_children root p c :
  built root -> cursor_at root p = Some c ->
  let cs := tchildren (erase (c_green c)) in
  (exists l, yields node_children_next (children_new c) l /\ at_children root p (sel_from is_node cs 0) l) /\
  (exists l, yields element_children_next (children_new c) l /\ at_children root p (sel_from any cs 0) l) /\
  (forall m, exists st l, node_by_kind m (children_new c) = Ok st /\ yields (node_by_kind_next m) st l /\
     at_children root p (sel_from (fun t => m (tkind t) && is_node t) cs 0) l) /\
  (forall m, exists st l, element_by_kind m (children_new c) = Ok st /\ yields (element_by_kind_next m) st l /\
     at_children root p (sel_from (fun t => m (tkind t)) cs 0) l).
Proof.
  intros H%built_wfg Hc cs. split_and!.
  - by apply children_yields.
  - by apply children_with_tokens_yields.
  - by apply children_by_kind_yields.
  - by apply children_with_tokens_by_kind_yields.
Qed.
Print Assumptions c16_children.
Theorem c16_siblings root p i c c0 d :
  built root -> cursor_at root p = Some c0 -> cursor_at root (p ++ [i]) = Some c ->
  let cs := tchildren (erase (c_green c0)) in
  (exists l, yields (siblings_next d) (Some c) l /\
     at_children root p (i :: match d with Next => sel_from is_node cs (S i) | Prev => sel_below is_node cs i end) l) /\
  (exists l, yields (siblings_with_tokens_next d) (Some c) l /\
     at_children root p (i :: match d with Next => sel_from any cs (S i) | Prev => sel_below any cs i end) l).
Proof. intros H%built_wfg H0 Hc cs. split; [by apply siblings_yields|by apply siblings_with_tokens_yields]. Qed.
Print Assumptions c16_siblings.
Theorem c16_ancestors root p c :
  cursor_at root p = Some c ->
  exists l, yields ancestors_next (Some c) l /\ Forall2 (fun q c => cursor_at root q = Some c) (prefixes_rev p) l.
Proof. apply ancestors_yields. Qed.
Print Assumptions c16_ancestors.
(** [by_kind] on an iterator that has already yielded the child at [i] starts
    again at that child instead of after it *)
Theorem c16_by_kind_midway_partial root p i c c0 m :
  built root -> cursor_at root p = Some c0 -> cursor_at root (p ++ [i]) = Some c ->
  let cs := tchildren (erase (c_green c0)) in
  (c_is_node c = true ->
   exists st l, node_by_kind m (CI c0 (Some c) true) = Ok st /\ yields (node_by_kind_next m) st l /\
     at_children root p (sel_from (fun t => m (tkind t) && is_node t) cs i) l) /\
  (exists st l, element_by_kind m (CI c0 (Some c) true) = Ok st /\ yields (element_by_kind_next m) st l /\
     at_children root p (sel_from (fun t => m (tkind t)) cs i) l).
Proof.
  intros H%built_wfg H0 Hc cs. split.
  - intros Hn. apply (by_kind_mid_gen root p c0 H0 (fun t => m (tkind t) && is_node t) (next_sibling_by_kind m) i c); [done| |].
    + unfold c_is_node, c_kind in *. destruct (c_green c); [|done]. simpl. by rewrite andb_true_r.
    + intros j d Hd. by apply next_sibling_by_kind_at'.
  - apply (by_kind_mid_gen root p c0 H0 (fun t => m (tkind t)) (next_sibling_or_token_by_kind m) i c); [done| |].
    + unfold c_kind. by destruct (c_green c).
    + intros j d Hd. by apply next_sibling_or_token_by_kind_at'.
Qed.
Print Assumptions c16_by_kind_midway_partial.
(** so an element is yielded twice: by [next] and again after [by_kind] *)
Theorem c16_by_kind_midway_refuted :
  exists root c item it m st l, built root /\ cursor_at root [] = Some c /\
    node_children_next (children_new c) = Ok (Some item, it) /\
    node_by_kind m it = Ok st /\ yields (node_by_kind_next m) st l /\ item ∈ l.
Proof.
  exists ex_g, (ex_c []), (ex_c [0]), (CI (ex_c []) (Some (ex_c [0])) true), (fun _ => true).
  destruct (c16_by_kind_midway_partial ex_g [] 0 (ex_c [0]) (ex_c []) (fun _ => true)) as [H _].
  { apply ex_g_ok. } { vm_compute; reflexivity. } { vm_compute; reflexivity. }
  destruct H as (st&l&H1&H2&H3); [vm_compute; reflexivity|]. exists st, l.
  split; [apply ex_g_ok|]. split; [vm_compute; reflexivity|]. split; [vm_compute; reflexivity|].
  split; [done|]. split; [done|].
  inversion H3 as [|? y ? l' E1 E2 E3]; subst. simpl in E1.
  assert (cursor_at ex_g [0] = Some (ex_c [0])) as E by (vm_compute; reflexivity).
  assert (y = ex_c [0]) as -> by congruence. left.
Qed.
Print Assumptions c16_by_kind_midway_refuted.
Example c16_nonvacuous :
  collect node_children_next 9 (children_new (ex_c [])) = Ok (map ex_c [[0]; [1]; [2]; [4]]) /\
  collect (siblings_next Prev) 9 (Some (ex_c [4])) = Ok (map ex_c [[4]; [2]; [1]; [0]]) /\
  collect ancestors_next 9 (Some (ex_c [4; 1])) = Ok (map ex_c [[4; 1]; [4]; []]).
Proof. vm_compute. done. Qed.

(** ** C17 *)
(** [ev_at root p e e']: the event [e'] is the event [e] at a position below [p] *)
Theorem c17_preorder root p c :
  built root -> coherent root -> cursor_at root p = Some c -> c_is_node c = true ->
  exists evs, yields preorder_next (preorder_new c) evs /\
    Forall2 (ev_at root p) (twalk_nodes (erase (c_green c))) evs.
Proof. intros H%built_wfg. by apply preorder_all. Qed.
Print Assumptions c17_preorder.
Theorem c17_preorder_with_tokens root p c :
  built root -> coherent root -> cursor_at root p = Some c ->
  exists evs, yields preorder_wt_next (preorder_new c) evs /\
    Forall2 (ev_at root p) (twalk (erase (c_green c))) evs.
Proof. intros H%built_wfg. by apply preorder_wt_all. Qed.
Print Assumptions c17_preorder_with_tokens.
Theorem c17_descendants root p c :
  built root -> coherent root -> cursor_at root p = Some c -> c_is_node c = true ->
  (exists l, descendants c = Ok l /\
    Forall2 (fun q d => cursor_at root (p ++ q) = Some d) (walk_enters (twalk_nodes (erase (c_green c)))) l) /\
  (exists l, descendants_with_tokens c = Ok l /\
    Forall2 (fun q d => cursor_at root (p ++ q) = Some d) (positions (erase (c_green c))) l).
Proof. intros H%built_wfg Hco Hc Hn. split; [by apply descendants_at|by apply descendants_with_tokens_at]. Qed.
Print Assumptions c17_descendants.
Example c17_nonvacuous :
  collect preorder_next 99 (preorder_new (ex_c [])) =
  Ok [Enter (ex_c []); Enter (ex_c [0]); Leave (ex_c [0]); Enter (ex_c [1]); Leave (ex_c [1]);
      Enter (ex_c [2]); Leave (ex_c [2]); Enter (ex_c [4]); Leave (ex_c [4]); Leave (ex_c [])].
Proof. vm_compute. done. Qed.

(** ** C18 *)
(** a client that calls [skip_subtree] right after some of the [Enter] events *)
Theorem c18_skip_subtree root p c (prune : pos -> bool) :
  built root -> coherent root -> cursor_at root p = Some c ->
  (exists evs, yields (drive preorder_next (fun d => prune (c_path d))) (preorder_new c) evs /\
     Forall2 (ev_at root p) (twalk_pruned is_node (fun q => prune (p ++ q)) (erase (c_green c))) evs) /\
  (exists evs, yields (drive preorder_wt_next (fun d => prune (c_path d))) (preorder_new c) evs /\
     Forall2 (ev_at root p) (twalk_pruned any (fun q => prune (p ++ q)) (erase (c_green c))) evs).
Proof. intros H%built_wfg Hco Hc. split; [by apply preorder_yields|by apply preorder_wt_yields]. Qed.
Print Assumptions c18_skip_subtree.
(** at other times: before the first event on a root it panics; before the
    first event on another node the walk leaves the subtree; after a [Leave]
    the following siblings are skipped *)
Theorem c18_misuse_unsafe :
  (forall g, preorder_next (skip_subtree (preorder_new (new_root g))) = Err Panic) /\
  (forall root p i c c0, built root -> cursor_at root p = Some c0 -> cursor_at root (p ++ [i]) = Some c ->
     exists po, preorder_next (skip_subtree (preorder_new c)) = Ok (Some (Leave c0), po)) /\
  (exists root c d po, built root /\ cursor_at root [] = Some c /\
     steps preorder_next (preorder_new c) [Enter c; Enter d; Leave d] po /\
     (exists e po', next_sibling d = Ok (Some e) /\ preorder_next po = Ok (Some (Enter e), po')) /\
     (exists po', preorder_next (skip_subtree po) = Ok (Some (Leave c), po'))).
Proof.
  split_and!.
  - done.
  - intros root p i c c0 H%built_wfg H0 Hc. destruct (sib_shape root p i c c0 Hc H0) as [Hs _].
    unfold preorder_next, preorder_next_gen. simpl. rewrite Hs. cbn [c_parent unwrap mbind res_bind preorder_succ].
    destruct (c_eqb c0 _); [eexists; reflexivity|].
    destruct (nav_fn_total root next_sibling c0 H nf_ns ltac:(by exists p)) as (o&Ho&_).
    rewrite Ho. eexists; reflexivity.
  - exists ex_g, (ex_c []), (ex_c [0]), (PO (ex_c []) (Some (Enter (ex_c [1]))) false).
    split; [apply ex_g_ok|]. split; [vm_compute; reflexivity|]. split.
    { eapply steps_cons; [vm_compute; reflexivity|]. eapply steps_cons; [vm_compute; reflexivity|].
      eapply steps_cons; [vm_compute; reflexivity|]. apply steps_nil. }
    split.
    + exists (ex_c [1]). eexists. split; [vm_compute; reflexivity|]. vm_compute. reflexivity.
    + eexists. vm_compute. reflexivity.
Qed.
Print Assumptions c18_misuse_unsafe.
Example c18_nonvacuous :
  collect (drive preorder_wt_next (fun d => (length (c_path d) =? 1)%nat)) 99 (preorder_new (ex_c [])) =
  Ok [Enter (ex_c []); Enter (ex_c [0]); Leave (ex_c [0]); Enter (ex_c [1]); Leave (ex_c [1]);
      Enter (ex_c [2]); Leave (ex_c [2]); Enter (ex_c [3]); Leave (ex_c [3]); Enter (ex_c [4]); Leave (ex_c [4]); Leave (ex_c [])].
Proof. vm_compute. done. Qed.

(** ** C19 *)
(** on a subtree in which no node is empty, [first_token] and [last_token] are
    the first and last token *)
Theorem c19_first_last_token_partial root p c :
  built root -> cursor_at root p = Some c -> no_empty_nodes (erase (c_green c)) ->
  first_token c = Ok (head (token_positions (erase (c_green c))) ≫= fun q => cursor_at root (p ++ q)) /\
  last_token c = Ok (last (token_positions (erase (c_green c))) ≫= fun q => cursor_at root (p ++ q)) /\
  token_positions (erase (c_green c)) <> [].
Proof.
  intros H%built_wfg Hc Hne. rewrite (first_token_at root H p c Hc), (last_token_at root H p c Hc).
  destruct (leftmost_head _ Hne) as [Hl [q Hq]]. destruct (rightmost_last _ Hne) as [Hr _].
  rewrite <- Hl, <- Hr. split; [done|]. split; [done|]. intros E. rewrite E in Hl. simpl in Hl. congruence.
Qed.
Print Assumptions c19_first_last_token_partial.
(** in general they follow the first (last) child down and give up at an empty node *)
Theorem c19_first_last_token_exact root p c :
  built root -> cursor_at root p = Some c ->
  first_token c = Ok (leftmost (erase (c_green c)) ≫= fun q => cursor_at root (p ++ q)) /\
  last_token c = Ok (rightmost (erase (c_green c)) ≫= fun q => cursor_at root (p ++ q)).
Proof. intros H%built_wfg Hc. split; [by apply first_token_at|by apply last_token_at]. Qed.
Print Assumptions c19_first_last_token_exact.
(** so [None] does not mean that there is no token *)
Theorem c19_first_token_refuted :
  exists env ch ops root c, cenv_ok env /\ cache_reachable env Checked ch /\ b_build env Checked ch ops = Ok root /\
    cursor_at root [] = Some c /\ first_token c = Ok None /\ token_positions (erase root) <> [].
Proof.
  exists ex_env, cache_empty, [BStartNode 1; BStartNode 5; BFinishNode; BToken 3 [97]; BFinishNode]%N.
  eexists. eexists. split; [apply ex_env_ok|]. split; [apply ex_cache_reachable|].
  split; [vm_compute; reflexivity|]. split; [reflexivity|]. split; [vm_compute; reflexivity|].
  vm_compute. discriminate.
Qed.
Print Assumptions c19_first_token_refuted.
Example c19_nonvacuous :
  no_empty_nodes (erase (c_green (ex_c [4]))) /\ first_token (ex_c [4]) = Ok (Some (ex_c [4; 0])) /\
  last_token (ex_c []) = Ok (Some (ex_c [4; 1])).
Proof. vm_compute. done. Qed.

(** ** C20 *)
Theorem c20_next_prev_token_partial root n p c :
  built root -> no_empty_nodes (erase root) ->
  token_positions (erase root) !! n = Some p -> cursor_at root p = Some c ->
  next_token c = Ok (token_positions (erase root) !! S n ≫= cursor_at root) /\
  prev_token c = Ok (match n with 0 => None | S m => token_positions (erase root) !! m end ≫= cursor_at root).
Proof. intros H%built_wfg. by apply next_prev_token_no_empty. Qed.
Print Assumptions c20_next_prev_token_partial.
(** in general: the leftmost (rightmost) token of the nearest following
    (preceding) sibling of the token or of one of its ancestors *)
Theorem c20_next_prev_token_exact root p c :
  built root -> cursor_at root p = Some c ->
  next_token c = Ok (q ← up_next (erase root) p; x ← tsub (erase root) q; q' ← leftmost x; cursor_at root (q ++ q')) /\
  prev_token c = Ok (q ← up_prev (erase root) p; x ← tsub (erase root) q; q' ← rightmost x; cursor_at root (q ++ q')).
Proof. intros H%built_wfg Hc. split; [by apply next_token_at|by apply prev_token_at]. Qed.
Print Assumptions c20_next_prev_token_exact.
Theorem c20_next_token_refuted :
  exists env ch ops root n p c, cenv_ok env /\ cache_reachable env Checked ch /\ b_build env Checked ch ops = Ok root /\
    token_positions (erase root) !! n = Some p /\ cursor_at root p = Some c /\
    next_token c = Ok None /\ S n < length (token_positions (erase root)).
Proof.
  exists ex_env, cache_empty, ex_ops2, ex_g, 1, [0; 1], (ex_c [0; 1]).
  split; [apply ex_env_ok|]. split; [apply ex_cache_reachable|].
  split; [vm_compute; reflexivity|]. split; [vm_compute; reflexivity|]. split; [vm_compute; reflexivity|].
  split; [vm_compute; reflexivity|]. vm_compute. lia.
Qed.
Print Assumptions c20_next_token_refuted.
Example c20_nonvacuous :
  exists root, b_build ex_env Checked cache_empty ex_ops = Ok root /\ no_empty_nodes (erase root) /\
    token_positions (erase root) = [[0; 0]; [0; 1]; [1; 0]; [1; 1]] /\
    cursor_at root [0; 1] <> None /\ (cursor_at root [0; 1] ≫= fun c => Some (next_token c)) = Some (Ok (cursor_at root [1; 0])).
Proof.
  eexists. split; [vm_compute; reflexivity|]. split; [vm_compute; intuition discriminate|].
  split; [vm_compute; reflexivity|]. split; [vm_compute; discriminate|vm_compute; reflexivity].
Qed.

(** ** C21 *)
(** [touching_tokens]: the non-empty tokens of the subtree at [p] whose range touches byte [x] *)
Theorem c21_token_at_offset root p c x :
  built root -> cursor_at root p = Some c -> c_is_node c = true ->
  match trange (erase root) p with
  | Some (a, b) =>
      if (a <=? x)%N && (x <=? b)%N
      then exists r, token_at_offset c x = Ok r /\
             Forall2 (fun q d => cursor_at root (p ++ q) = Some d) (touching_tokens (erase root) p x) (tao_list r)
      else token_at_offset c x = Err Panic
  | None => False
  end.
Proof.
  intros H%built_wfg Hc Hn. rewrite (crange_trange root H p c Hc). simpl.
  destruct (N.leb_spec (c_offset c) x) as [H1|H1]; simpl.
  - destruct (N.leb_spec x (c_offset c + blen (gtext (c_green c)))) as [H2|H2].
    + by apply token_at_offset_at.
    + apply (token_at_offset_outside root H p); [done|]. lia.
  - apply (token_at_offset_outside root H p); [done|]. lia.
Qed.
Print Assumptions c21_token_at_offset.
(** how many: none in an empty node; otherwise one or two, and two only at an inner boundary *)
Theorem c21_count root p c x a b :
  built root -> cursor_at root p = Some c -> trange (erase root) p = Some (a, b) -> (a <= x <= b)%N ->
  match touching_tokens (erase root) p x with
  | [] => a = b
  | [q] => (a < b)%N
  | [q1; q2] => (a < x < b)%N /\ exists s e, trange (erase root) (p ++ q1) = Some (s, x) /\ trange (erase root) (p ++ q2) = Some (x, e)
  | _ => False
  end.
Proof.
  intros H%built_wfg Hc Ht Hx. rewrite (tt_app _ _ _ _ (cursor_at_tsub _ _ _ Hc)).
  unfold trange in Ht. rewrite (cursor_at_tsub _ _ _ Hc) in Ht. injection Ht as <- <-.
  set (b := blen (tbefore (erase root) p)) in *. set (t := erase (c_green c)) in *.
  destruct (decide (blen (ttext t) = 0%N)) as [Hz|Hz].
  - rewrite tt_out by lia. lia.
  - destruct (tt_count b t x Hx ltac:(lia)) as [[q ->]|(q1&q2&s&e&->&Hlt&E1&E2)]; [lia|]. split; [done|].
    exists (b + s)%N, (b + e)%N. rewrite !(trange_app _ _ _ _ (cursor_at_tsub _ _ _ Hc)). fold t b. rewrite E1, E2.
    split; do 2 f_equal; lia.
Qed.
Print Assumptions c21_count.
Example c21_nonvacuous :
  token_at_offset (ex_c []) 5 = Ok (TaoBetween (ex_c [0; 1]) (ex_c [3])) /\
  token_at_offset (ex_c []) 2 = Ok (TaoSingle (ex_c [0; 1])) /\ token_at_offset (ex_c [1]) 5 = Ok TaoNone /\
  token_at_offset (ex_c [1]) 6 = Err Panic /\ touching_tokens (erase ex_g) [] 5 = [[0; 1]; [3]].
Proof. vm_compute. done. Qed.

(** ** C22 *)
Theorem c22_covering_element root p c r a b :
  built root -> cursor_at root p = Some c -> c_is_node c = true -> range_ok r ->
  trange (erase root) p = Some (a, b) ->
  if (a <=? rstart r)%N && (rend r <=? b)%N then
    exists q d, covering_element c r = Ok d /\ cursor_at root (p ++ q) = Some d /\
      (exists ra, trange (erase root) (p ++ q) = Some ra /\ range_contains ra (rstart r, rend r)) /\
      (forall i ra, trange (erase root) (p ++ q ++ [i]) = Some ra -> ~ range_contains ra (rstart r, rend r)) /\
      ((rstart r < rend r)%N -> forall q' ra, trange (erase root) (p ++ q') = Some ra ->
         range_contains ra (rstart r, rend r) -> ancestor_or_self q' q)
  else covering_element c r = Err Panic.
Proof.
  intros H%built_wfg Hc Hn Hr Ht. rewrite (crange_trange root H p c Hc) in Ht. injection Ht as <- <-.
  assert (Hinv : forall q ra, trange (erase root) q = Some ra -> exists d, cursor_at root q = Some d /\ ra = crange d).
  { intros q ra Hq. destruct (cursor_at_is_Some root q) as [d Hd].
    - unfold trange in Hq. destruct (tsub (erase root) q); [by eexists|done].
    - exists d. split; [done|]. rewrite (crange_trange root H q d Hd) in Hq. by injection Hq. }
  assert (Hdec : ((c_offset c <=? rstart r)%N && (rend r <=? c_offset c + blen (gtext (c_green c)))%N) = true <->
                 range_contains (crange c) (rstart r, rend r)).
  { rewrite andb_true_iff, !N.leb_le. done. }
  destruct ((c_offset c <=? rstart r)%N && _) eqn:E.
  - destruct (covering_element_f_at root H _ p c r Hc (le_n _) Hr (proj1 Hdec eq_refl)) as (q&d&H1&H2&H3&H4&H5).
    exists q, d. split; [done|]. split; [done|]. split.
    + exists (crange d). split; [by apply crange_trange|done].
    + split.
      * intros i ra (e&He&->)%Hinv. by apply (H4 i e).
      * intros Hne q' ra (e&He&->)%Hinv Hra. by apply (H5 Hne q' e).
  - apply (covering_element_outside root H p); [done|]. intros Hx%Hdec. done.
Qed.
Print Assumptions c22_covering_element.
Example c22_nonvacuous :
  covering_element (ex_c []) (TR 7 8) = Ok (ex_c [4; 1]) /\ covering_element (ex_c []) (TR 6 8) = Ok (ex_c [4]) /\
  covering_element (ex_c []) (TR 5 8) = Ok (ex_c []) /\ covering_element (ex_c [4]) (TR 5 8) = Err Panic.
Proof. vm_compute. done. Qed.

(** ** C23 *)
Theorem c23_child_or_token_at_range root p c r :
  built root -> cursor_at root p = Some c -> range_ok r ->
  if (c_offset c <=? rstart r)%N then
    exists o, child_or_token_at_range c r = Ok (o ≫= fun i => cursor_at root (p ++ [i])) /\
    match o with
    | Some i => exists ra, trange (erase root) (p ++ [i]) = Some ra /\ range_contains ra (rstart r, rend r) /\
        ((rstart r < rend r)%N -> forall j ra, trange (erase root) (p ++ [j]) = Some ra ->
           range_contains ra (rstart r, rend r) -> i = j)
    | None => forall j ra, trange (erase root) (p ++ [j]) = Some ra -> ~ range_contains ra (rstart r, rend r)
    end
  else child_or_token_at_range c r = Err Panic.
Proof.
  intros H%built_wfg Hc Hr.
  assert (Hinv : forall q ra, trange (erase root) q = Some ra -> exists d, cursor_at root q = Some d /\ ra = crange d).
  { intros q ra Hq. destruct (cursor_at_is_Some root q) as [d Hd].
    - unfold trange in Hq. destruct (tsub (erase root) q); [by eexists|done].
    - exists d. split; [done|]. rewrite (crange_trange root H q d Hd) in Hq. by injection Hq. }
  destruct (N.leb_spec (c_offset c) (rstart r)) as [Hle|Hlt].
  - destruct (child_or_token_at_range_at root H p c r Hc Hr Hle) as (o&H1&H2). exists o. split; [done|].
    destruct o as [i|].
    + destruct H2 as (d&Hd&Hrd). exists (crange d). split; [by apply crange_trange|]. split; [done|].
      intros Hne j ra (e&He&->)%Hinv Hra. by eapply (contains_unique root H p c i j d e (rstart r) (rend r)).
    + intros j ra (e&He&->)%Hinv. by apply (H2 j).
  - unfold child_or_token_at_range, range_sub. destruct (N.leb_spec (c_offset c) (rstart r)); [lia|done].
Qed.
Print Assumptions c23_child_or_token_at_range.
Example c23_nonvacuous :
  child_or_token_at_range (ex_c []) (TR 5 6) = Ok (Some (ex_c [3])) /\ child_or_token_at_range (ex_c []) (TR 4 6) = Ok None /\
  child_or_token_at_range (ex_c [4]) (TR 5 6) = Err Panic.
Proof. vm_compute. done. Qed.

(** ** C25 *)
(** off the path, the subtrees are the same green values, addresses included *)
Theorem c25_replace_with root al p c new :
  built root -> built new -> cursor_at root p = Some c ->
  match replace_with al c new with
  | Ok g' => c_kind c = gkind new /\ built g' /\ erase g' = treplace (erase root) p (erase new) /\ gsub g' p = Some new /\
      (forall q, ~ ancestor_or_self q p -> ~ ancestor_or_self p q -> gsub g' q = gsub root q) /\
      exists post, green_display root = tbefore (erase root) p ++ green_display (c_green c) ++ post /\
                   green_display g' = tbefore (erase root) p ++ green_display new ++ post
  | Err e => e = Panic /\ (c_kind c <> gkind new \/ (u32_max < blen (ttext (treplace (erase root) p (erase new))))%N)
  end.
Proof.
  intros H%built_wfg Hn%built_wfg Hc. pose proof (replace_with_at root al p c new H Hn Hc) as R.
  destruct (replace_with al c new) as [g'|e]; [|done]. destruct R as [Hk (Hw&He&Hp&Hoff)].
  split; [done|]. split; [by apply wfg_built|]. split; [done|]. split; [done|]. split; [done|].
  destruct (treplace_text (erase root) p _ (erase new) (cursor_at_tsub _ _ _ Hc)) as (q&Hq1&Hq2).
  exists q. rewrite !green_display_text. unfold gtext. rewrite He. done.
Qed.
Print Assumptions c25_replace_with.
Theorem c25_token_replace_with root al p c new :
  built root -> built new -> cursor_at root p = Some c ->
  match token_replace_with al c new with
  | Ok g' => p <> [] /\ replace_with al c new = Ok g'
  | Err e => e = Panic /\
      (p = [] \/ c_kind c <> gkind new \/ (u32_max < blen (ttext (treplace (erase root) p (erase new))))%N)
  end.
Proof.
  intros H%built_wfg Hn%built_wfg Hc. pose proof (token_replace_with_at root al p c new H Hn Hc) as R.
  destruct (token_replace_with al c new) as [g'|e] eqn:E; [|done]. destruct R as (Hp&_&_). split; [done|].
  destruct c as [g|pa i o g]; [|exact E]. exfalso. unfold token_replace_with in E. simpl in E.
  by destruct (gkind g =? gkind new)%N.
Qed.
Print Assumptions c25_token_replace_with.
Example c25_nonvacuous :
  exists g', replace_with (fun n => 100 + n) (ex_c [4]) (GNode 90 2 1 [(0%N, GTok 91 3 [120]%N)]) = Ok g' /\
    green_display g' = [97; 98; 8364; 32; 120]%N /\ gsub g' [0] = gsub ex_g [0] /\ green_text_len g' = Ok 7%N.
Proof. eexists. split; [vm_compute; reflexivity|]. vm_compute. done. Qed.

(** ** C26 *)
(** an element equals itself, and two elements that compare equal and have text are the same *)
Theorem c26_equality_partial root p q c d :
  built root -> coherent root -> cursor_at root p = Some c -> cursor_at root q = Some d ->
  (p = q -> c_eqb c d = true) /\
  (c_eqb c d = true -> p = q \/
     (green_display (c_green c) = [] /\ c_green c = c_green d /\ c_text_range c = c_text_range d /\
      ~ ancestor_or_self p q /\ ~ ancestor_or_self q p)).
Proof.
  intros H%built_wfg Hco Hc Hd. split.
  - intros ->. assert (c = d) as -> by congruence. by apply c_eqb_true.
  - intros He. destruct (eqb_exact root H p q c d Hco Hc Hd He) as (Hg&Hr&[->|(Ht&H1&H2)]); [by left|right].
    rewrite green_display_text. split; [done|]. split; [done|]. split; [|done].
    rewrite (c_text_range_at root H p c Hc), (c_text_range_at root H q d Hd). unfold crange in Hr. by injection Hr as -> ->.
Qed.
Print Assumptions c26_equality_partial.
(** ... but distinct empty siblings compare equal *)
Theorem c26_equality_refuted :
  exists env ch ops root p q c d, cenv_ok env /\ cache_reachable env Checked ch /\ b_build env Checked ch ops = Ok root /\
    cursor_at root p = Some c /\ cursor_at root q = Some d /\ c_eqb c d = true /\ p <> q.
Proof.
  exists ex_env, cache_empty, ex_ops2, ex_g, [1], [2], (ex_c [1]), (ex_c [2]).
  split; [apply ex_env_ok|]. split; [apply ex_cache_reachable|].
  split; [vm_compute; reflexivity|]. split; [vm_compute; reflexivity|]. split; [vm_compute; reflexivity|].
  split; [vm_compute; reflexivity|done].
Qed.
Print Assumptions c26_equality_refuted.
Example c26_nonvacuous : c_eqb (ex_c [0]) (ex_c [4]) = false /\ c_green (ex_c [0]) = c_green (ex_c [4]).
Proof. vm_compute. done. Qed.
