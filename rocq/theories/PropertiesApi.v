(** * Properties of the typed layer (C75, C76)

    [kfr] is any interpretation of raw kinds; [elem_at root p e] says that [e] is
    the handle of the element of [root] at position [p], wrapped as a node when
    the specification tree has a node there and as a token when it has a token.
    The statements are in terms of the specification tree [erase root]. *)
From Verif Require Import ApiFacts PropertiesCursor.

(** ** C75 *)
(** every position has exactly one typed handle, and handles of different positions differ *)
Theorem c75_handles root p :
  (is_Some (tsub (erase root) p) -> exists e, elem_at root p e) /\
  (forall e1 e2, elem_at root p e1 -> elem_at root p e2 -> e1 = e2) /\
  (forall q e, elem_at root p e -> elem_at root q e -> p = q) /\
  (forall e, elem_at root p e -> is_Some (tsub (erase root) p) /\ elem_from (elem_into e) = e).
Proof.
  split_and!.
  - intros [c Hc]%cursor_at_is_Some. exists (elem_from c). by apply elem_from_at.
  - intros e1 e2 [H1 <-]%elem_at_raw [H2 <-]%elem_at_raw. rewrite H1 in H2. injection H2 as H2. by rewrite H2.
  - intros q e [H1 _]%elem_at_raw [H2 _]%elem_at_raw. by eapply cursor_at_inj.
  - intros e [H1 H2]%elem_at_raw. split; [|done]. rewrite (cursor_at_tsub _ _ _ H1). by eexists.
Qed.
Print Assumptions c75_handles.

(** what a handle says about itself *)
Theorem c75_accessors {K} (kfr : kind -> K) root p e t :
  built root -> elem_at root p e -> tsub (erase root) p = Some t ->
  te_kind kfr e = kfr (tkind t) /\
  (exists a b, te_text_range e = Ok (TR a b) /\ trange (erase root) p = Some (a, b)) /\
  te_index e = default 0 (last p) /\
  gives (node_at root) (Ok (te_parent e)) (match p with [] => None | _ => Some (removelast p) end) /\
  match e with NTNode n => exists k cs, t = Node k cs | NTToken n => exists k, t = Token k (tt_text n) end.
Proof.
  intros Hb He Ht. pose proof (elem_at_raw _ _ _ He) as [Hc Hf].
  destruct (c13_exact root p t Hb Ht) as (c&a&b&H1&H2&H3&H4&H5&_). rewrite Hc in H1. injection H1 as <-. split_and!.
  - by rewrite <- H3; destruct e.
  - exists a, b. split; [|done]. rewrite <- H4. by destruct e.
  - assert (te_index e = c_index (elem_into e)) as -> by (by destruct e).
    destruct p as [|i p _] using rev_ind; [by injection Hc as <-|]. rewrite last_snoc. simpl.
    destruct (cursor_at_prefix _ _ _ _ Hc) as [c0 H0]. by destruct (c14_child_parent_index _ _ _ _ _ H0 Hc).
  - assert (te_parent e = option_map node_from (c_parent (elem_into e))) as -> by (by destruct e).
    destruct p as [|i p _] using rev_ind.
    + injection Hc as <-. by exists None.
    + destruct (parent_snoc _ _ _ _ Hc) as (c0&H0&H0p&H0n). rewrite H0p. simpl.
      rewrite removelast_last. destruct (p ++ [i]) eqn:E; [by destruct p|].
      exists (Some (node_from c0)). split; [done|]. by apply node_from_at.
  - destruct e as [n|n]; simpl in He; destruct He as [_ (k&x&Hx)]; rewrite Ht in Hx; injection Hx as ->; [eauto|].
    exists k. unfold tt_text, c_text. simpl in H2. destruct (c_green (tok_into n)) as [|g1 g2 g3] eqn:Eg; [done|].
    unfold tok_into in Eg. rewrite Eg. simpl in H2. congruence.
Qed.
Print Assumptions c75_accessors.

(** the children of a node, by position and by kind *)
Theorem c75_children {K} (kfr : kind -> K) root p n k cs :
  built root -> node_at root p n -> tsub (erase root) p = Some (Node k cs) ->
  (exists o, is_first_from is_node cs 0 o /\ gives (node_at root) (tn_first_child n) (kid p <$> o)) /\
  (forall m, exists o, is_first_from (fun t => m (kfr (tkind t)) && is_node t) cs 0 o /\
     gives (node_at root) (tn_first_child_by_kind kfr m n) (kid p <$> o)) /\
  (exists o, is_last_below is_node cs (length cs) o /\ gives (node_at root) (tn_last_child n) (kid p <$> o)) /\
  (exists o, is_first_from any cs 0 o /\ gives (elem_at root) (tn_first_child_or_token n) (kid p <$> o)) /\
  (forall m, exists o, is_first_from (fun t => m (kfr (tkind t))) cs 0 o /\
     gives (elem_at root) (tn_first_child_or_token_by_kind kfr m n) (kid p <$> o)) /\
  (exists o, is_last_below any cs (length cs) o /\ gives (elem_at root) (tn_last_child_or_token n) (kid p <$> o)).
Proof.
  intros Hb [Hc Hn]%node_at_raw Ht. rewrite (cursor_at_tsub _ _ _ Hc) in Ht.
  assert (cs = tchildren (erase (c_green (tn_raw n)))) as -> by (injection Ht as Ht; by rewrite Ht).
  destruct (c14_child_accessors root p (tn_raw n) Hb Hc) as (H1&H2&H3&H4&H5&H6). split_and!.
  - destruct H1 as (o&Ho&Ha). exists o. split; [done|]. eapply gives_node; [done..|intros i Hi; by eapply first_from_sat|done].
  - intros m. destruct (H2 (raw_matcher kfr m)) as (o&Ho&Ha). exists o. split; [done|].
    eapply gives_node; [done..|intros i Hi; by eapply first_from_sat|]. by intros t [_ ?]%andb_true_iff.
  - destruct H3 as (o&Ho&Ha). exists o. split; [done|]. eapply gives_node; [done..|intros i Hi; by eapply last_below_sat|done].
  - destruct H4 as (o&Ho&Ha). exists o. split; [done|]. eapply gives_elem; [done..|intros i Hi; by eapply first_from_sat].
  - intros m. destruct (H5 (raw_matcher kfr m)) as (o&Ho&Ha). exists o. split; [done|].
    eapply gives_elem; [done..|intros i Hi; by eapply first_from_sat].
  - destruct H6 as (o&Ho&Ha). exists o. split; [done|]. eapply gives_elem; [done..|intros i Hi; by eapply last_below_sat].
Qed.
Print Assumptions c75_children.

(** the siblings of the [i]-th child *)
Theorem c75_siblings {K} (kfr : kind -> K) root p i e k cs :
  built root -> tsub (erase root) p = Some (Node k cs) -> elem_at root (kid p i) e ->
  (exists o, is_first_from any cs (S i) o /\ gives (elem_at root) (te_next_sibling_or_token e) (kid p <$> o)) /\
  (exists o, is_last_below any cs i o /\ gives (elem_at root) (te_prev_sibling_or_token e) (kid p <$> o)) /\
  match e with
  | NTNode n =>
      (exists o, is_first_from is_node cs (S i) o /\ gives (node_at root) (tn_next_sibling n) (kid p <$> o)) /\
      (forall m, exists o, is_first_from (fun t => m (kfr (tkind t)) && is_node t) cs (S i) o /\
         gives (node_at root) (tn_next_sibling_by_kind kfr m n) (kid p <$> o)) /\
      (exists o, is_last_below is_node cs i o /\ gives (node_at root) (tn_prev_sibling n) (kid p <$> o)) /\
      (forall m, exists o, is_first_from (fun t => m (kfr (tkind t))) cs (S i) o /\
         gives (elem_at root) (tn_next_sibling_or_token_by_kind kfr m n) (kid p <$> o))
  | NTToken _ => True
  end.
Proof.
  intros Hb Ht [Hc _]%elem_at_raw. unfold kid in Hc. destruct (cursor_at_prefix _ _ _ _ Hc) as [c0 H0].
  rewrite (cursor_at_tsub _ _ _ H0) in Ht.
  assert (cs = tchildren (erase (c_green c0))) as -> by (injection Ht as Ht; by rewrite Ht).
  destruct (c15_siblings_exact root p i (elem_into e) c0 Hb H0 Hc) as (H1&H2&H3&H4&H5&H6). split_and!.
  - destruct H4 as (o&Ho&Ha). exists o. split; [done|].
    assert (te_next_sibling_or_token e = opt_map elem_from (next_sibling_or_token (elem_into e))) as -> by (by destruct e).
    eapply gives_elem; [done..|intros j Hi; by eapply first_from_sat].
  - destruct H6 as (o&Ho&Ha). exists o. split; [done|].
    assert (te_prev_sibling_or_token e = opt_map elem_from (prev_sibling_or_token (elem_into e))) as -> by (by destruct e).
    eapply gives_elem; [done..|intros j Hi; by eapply last_below_sat].
  - destruct e as [n|n]; [|done]. simpl in *. split_and!.
    + destruct H1 as (o&Ho&Ha). exists o. split; [done|]. eapply gives_node; [done..|intros j Hi; by eapply first_from_sat|done].
    + intros m. destruct (H2 (raw_matcher kfr m)) as (o&Ho&Ha). exists o. split; [done|].
      eapply gives_node; [done..|intros j Hi; by eapply first_from_sat|]. by intros t [_ ?]%andb_true_iff.
    + destruct H3 as (o&Ho&Ha). exists o. split; [done|]. eapply gives_node; [done..|intros j Hi; by eapply last_below_sat|done].
    + intros m. destruct (H5 (raw_matcher kfr m)) as (o&Ho&Ha). exists o. split; [done|].
      eapply gives_elem; [done..|intros j Hi; by eapply first_from_sat].
Qed.
Print Assumptions c75_siblings.
Theorem c75_root_siblings {K} (kfr : kind -> K) root e :
  elem_at root [] e ->
  te_next_sibling_or_token e = Ok None /\ te_prev_sibling_or_token e = Ok None /\
  match e with
  | NTNode n => tn_next_sibling n = Ok None /\ tn_prev_sibling n = Ok None /\
      forall m, tn_next_sibling_by_kind kfr m n = Ok None /\ tn_next_sibling_or_token_by_kind kfr m n = Ok None
  | NTToken _ => True
  end.
Proof. destruct e as [[c]|[c]]; simpl; intros [[= <-] _]; done. Qed.
Print Assumptions c75_root_siblings.

(** tokens: the first and last token of a node, the neighbours of a token.  As for
    the untyped functions (C19, C20) the search does not go around nodes without tokens. *)
Theorem c75_tokens root p :
  built root ->
  (forall n t, node_at root p n -> tsub (erase root) p = Some t ->
     gives (tok_at root) (tn_first_token n) (app p <$> leftmost t) /\
     gives (tok_at root) (tn_last_token n) (app p <$> rightmost t)) /\
  (forall t, tok_at root p t ->
     gives (tok_at root) (tt_next_token t) (q ← up_next (erase root) p; x ← tsub (erase root) q; app q <$> leftmost x) /\
     gives (tok_at root) (tt_prev_token t) (q ← up_prev (erase root) p; x ← tsub (erase root) q; app q <$> rightmost x)).
Proof.
  intros Hb. split.
  - intros n t [Hc _]%node_at_raw Ht. rewrite (cursor_at_tsub _ _ _ Hc) in Ht. injection Ht as <-.
    destruct (c19_first_last_token_exact root p _ Hb Hc) as [H1 H2]. unfold tn_first_token, tn_last_token. rewrite H1, H2.
    split.
    + destruct (leftmost _) as [q|] eqn:E; simpl; [|by exists None]. apply (gives_tok root (Some (p ++ q))). intros ? [= <-].
      rewrite tsub_app, (cursor_at_tsub _ _ _ Hc). by apply leftmost_token.
    + destruct (rightmost _) as [q|] eqn:E; simpl; [|by exists None]. apply (gives_tok root (Some (p ++ q))). intros ? [= <-].
      rewrite tsub_app, (cursor_at_tsub _ _ _ Hc). by apply rightmost_token.
  - intros t [Hc _]%tok_at_raw. destruct (c20_next_prev_token_exact root p _ Hb Hc) as [H1 H2].
    unfold tt_next_token, tt_prev_token. rewrite H1, H2. split.
    + destruct (up_next _ _) as [q|]; simpl; [|by exists None]. destruct (tsub _ q) as [x|] eqn:Ex; simpl; [|by exists None].
      destruct (leftmost x) as [q'|] eqn:E; simpl; [|by exists None]. apply (gives_tok root (Some (q ++ q'))). intros ? [= <-].
      rewrite tsub_app, Ex. by apply leftmost_token.
    + destruct (up_prev _ _) as [q|]; simpl; [|by exists None]. destruct (tsub _ q) as [x|] eqn:Ex; simpl; [|by exists None].
      destruct (rightmost x) as [q'|] eqn:E; simpl; [|by exists None]. apply (gives_tok root (Some (q ++ q'))). intros ? [= <-].
      rewrite tsub_app, Ex. by apply rightmost_token.
Qed.
Print Assumptions c75_tokens.

(** searches by offset and by range *)
Theorem c75_search root p n a b :
  built root -> node_at root p n -> trange (erase root) p = Some (a, b) ->
  (forall x,
     if (a <=? x)%N && (x <=? b)%N
     then exists r, tn_token_at_offset n x = Ok r /\
            Forall2 (fun q => tok_at root (p ++ q)) (touching_tokens (erase root) p x) (tao_list r)
     else tn_token_at_offset n x = Err Panic) /\
  (forall r, range_ok r ->
     if (a <=? rstart r)%N && (rend r <=? b)%N then
       exists q e, tn_covering_element n r = Ok e /\ elem_at root (p ++ q) e /\
         (exists ra, trange (erase root) (p ++ q) = Some ra /\ range_contains ra (rstart r, rend r)) /\
         (forall i ra, trange (erase root) (p ++ q ++ [i]) = Some ra -> ~ range_contains ra (rstart r, rend r))
     else tn_covering_element n r = Err Panic) /\
  (forall r, range_ok r ->
     if (a <=? rstart r)%N then
       exists o, gives (elem_at root) (tn_child_or_token_at_range n r) (kid p <$> o) /\
       match o with
       | Some i => exists ra, trange (erase root) (kid p i) = Some ra /\ range_contains ra (rstart r, rend r)
       | None => forall j ra, trange (erase root) (kid p j) = Some ra -> ~ range_contains ra (rstart r, rend r)
       end
     else tn_child_or_token_at_range n r = Err Panic).
Proof.
  intros Hb [Hc Hn]%node_at_raw Hr. split_and!.
  - intros x. pose proof (c21_token_at_offset root p _ x Hb Hc Hn) as H. rewrite Hr in H. unfold tn_token_at_offset.
    destruct (_ && _) eqn:E; [|by rewrite H]. destruct H as (r&Hr'&Hl). exists (tao_map tok_from r). rewrite Hr'. split; [done|].
    assert (tao_list (tao_map tok_from r) = map tok_from (tao_list r)) as -> by (by destruct r).
    eapply at_gives; [done|]. intros q d Hq Hd. unfold touching_tokens in Hq. rewrite (cursor_at_tsub _ _ _ Hc) in Hq.
    apply elem_of_list_In, filter_In in Hq as [Hq _]. apply elem_of_list_In, elem_of_token_positions in Hq as (k&s&Hks).
    eapply (tok_at_tsub _ _ _ k s); [done|]. by rewrite tsub_app, (cursor_at_tsub _ _ _ Hc).
  - intros r Hro. pose proof (c22_covering_element root p _ r a b Hb Hc Hn Hro Hr) as H. unfold tn_covering_element.
    destruct (_ && _); [|by rewrite H]. destruct H as (q&d&H1&H2&H3&H4&_). rewrite H1. exists q, (elem_from d).
    split; [done|]. split; [by apply elem_from_at|]. done.
  - intros r Hro. pose proof (c23_child_or_token_at_range root p _ r Hb Hc Hro) as H. unfold tn_child_or_token_at_range.
    assert (a = c_offset (tn_raw n)) as ->.
    { rewrite (crange_trange root (built_wfg _ Hb) p _ Hc) in Hr. by injection Hr. }
    destruct (_ <=? _)%N; [|by rewrite H]. destruct H as (o&H1&H2). exists o. rewrite H1. split.
    + destruct o as [i|]; simpl; [|by exists None]. destruct H2 as (ra&Hra&_).
      apply (gives_at (elem_at root) elem_from root (Some (kid p i))).
      * intros ? [= <-]. apply cursor_at_is_Some. unfold trange in Hra. unfold kid. destruct (tsub (erase root) (p ++ [i])); [by eexists|done].
      * intros q d _ Hd. by apply elem_from_at.
    + destruct o as [i|]; [|done]. destruct H2 as (ra&H2&H3&_). eauto.
Qed.
Print Assumptions c75_search.

(** the example language: kinds above 4 are one kind *)
Definition ex_kfr (k : kind) : bool := (4 <? k)%N.
Example c75_nonvacuous :
  built ex_g /\ elem_at ex_g [4; 1] (elem_from (ex_c [4; 1])) /\ node_at ex_g [4] (node_from (ex_c [4])) /\
  tn_first_child_by_kind ex_kfr id (node_from (ex_c [])) = Ok (Some (node_from (ex_c [1]))) /\
  tn_first_child_or_token_by_kind ex_kfr id (node_from (ex_c [])) = Ok (Some (NTNode (node_from (ex_c [1])))) /\
  tn_prev_sibling_or_token (node_from (ex_c [4])) = Ok (Some (NTToken (tok_from (ex_c [3])))) /\
  te_kind ex_kfr (elem_from (ex_c [4; 1])) = false /\
  tt_prev_token (tok_from (ex_c [4; 1])) = Ok (Some (tok_from (ex_c [4; 0]))).
Proof.
  split; [apply ex_g_ok|]. split; [apply elem_from_at; vm_compute; done|].
  split; [apply node_from_at; vm_compute; done|]. vm_compute. done.
Qed.

(** ** C76 *)
Theorem c76_children {K} (kfr : kind -> K) root p n k cs :
  built root -> node_at root p n -> tsub (erase root) p = Some (Node k cs) ->
  iter_gives (node_at root) tn_children (tn_children_new n) (map (kid p) (sel_from is_node cs 0)) /\
  iter_gives (elem_at root) te_children (tn_children_new n) (map (kid p) (seq 0 (length cs))) /\
  (forall m, exists st, tn_by_kind_new kfr m (tn_children_new n) = Ok st /\
     iter_gives (node_at root) (tn_by_kind kfr m) st (map (kid p) (sel_from (fun t => m (kfr (tkind t)) && is_node t) cs 0))) /\
  (forall m, exists st, te_by_kind_new kfr m (tn_children_new n) = Ok st /\
     iter_gives (elem_at root) (te_by_kind kfr m) st (map (kid p) (sel_from (fun t => m (kfr (tkind t))) cs 0))).
Proof.
  intros Hb [Hc Hn]%node_at_raw Ht. rewrite (cursor_at_tsub _ _ _ Hc) in Ht.
  assert (cs = tchildren (erase (c_green (tn_raw n)))) as -> by (injection Ht as Ht; by rewrite Ht).
  destruct (c16_children root p (tn_raw n) Hb Hc) as (H1&H2&H3&H4). split_and!.
  - destruct H1 as (l&Hy&Hl). eapply map_kids_node; [done..|]. intros i. apply sel_from_sat.
  - destruct H2 as (l&Hy&Hl). eapply map_kids_elem; [done|].
    assert (forall A j (l : list A), sel_go any j l = seq j (length l)) as Hs.
    { clear. intros A j l. revert j. induction l as [|x l IH]; intros j; simpl; [done|]. by rewrite IH. }
    unfold sel_from in Hl. by rewrite drop_0, Hs in Hl.
  - intros m. destruct (H3 (raw_matcher kfr m)) as (st&l&Hst&Hy&Hl). exists st. split; [done|].
    eapply map_kids_node; [done..|]. intros i (t&Ht1&[_ Ht2]%andb_true_iff)%sel_from_sat. eauto.
  - intros m. destruct (H4 (raw_matcher kfr m)) as (st&l&Hst&Hy&Hl). exists st. split; [done|]. by eapply map_kids_elem.
Qed.
Print Assumptions c76_children.
Theorem c76_siblings root p i e k cs d :
  built root -> tsub (erase root) p = Some (Node k cs) -> elem_at root (kid p i) e ->
  iter_gives (elem_at root) (t_siblings_with_tokens d) (Some (elem_into e))
    (map (kid p) (i :: match d with Next => sel_from any cs (S i) | Prev => sel_below any cs i end)) /\
  match e with
  | NTNode n =>
      iter_gives (node_at root) (tn_siblings d) (Some (tn_raw n))
        (map (kid p) (i :: match d with Next => sel_from is_node cs (S i) | Prev => sel_below is_node cs i end))
  | NTToken _ => True
  end.
Proof.
  intros Hb Ht He. pose proof (elem_at_raw _ _ _ He) as [Hc _]. unfold kid in Hc. destruct (cursor_at_prefix _ _ _ _ Hc) as [c0 H0].
  rewrite (cursor_at_tsub _ _ _ H0) in Ht.
  assert (cs = tchildren (erase (c_green c0))) as -> by (injection Ht as Ht; by rewrite Ht).
  destruct (c16_siblings root p i (elem_into e) c0 d Hb H0 Hc) as [(l1&Hy1&Hl1) (l2&Hy2&Hl2)]. split.
  - by eapply map_kids_elem.
  - destruct e as [n|n]; [|done]. eapply map_kids_node; [done..|]. intros j [->|Hj]%elem_of_cons.
    + destruct He as [_ (k'&cs'&Hk)]. unfold kid in Hk. rewrite tsub_app, (cursor_at_tsub _ _ _ H0) in Hk. simpl in Hk.
      destruct (tchildren (erase (c_green c0)) !! i) as [x|] eqn:Ex; [|done]. simpl in Hk. injection Hk as ->. eauto.
    + destruct d; [by eapply sel_from_sat|by eapply sel_below_sat].
Qed.
Print Assumptions c76_siblings.

(** [ancestors] of a node and of an element start with the node itself, those of a token with its parent *)
Theorem c76_ancestors root p e :
  elem_at root p e ->
  let up := match e with NTNode _ => prefixes_rev p | NTToken _ => match p with [] => [] | _ => prefixes_rev (removelast p) end end in
  iter_gives (node_at root) te_ancestors (te_ancestors_new e) up /\
  match e with
  | NTNode n => iter_gives (node_at root) tn_ancestors (tn_ancestors_new n) up
  | NTToken t => iter_gives (node_at root) tn_ancestors (tt_parent_ancestors_new t) up
  end.
Proof.
  intros He up.
  assert (forall o, iter_gives (node_at root) tn_ancestors o up -> (forall c, o = Some c -> cursor_at root (c_path c) = Some c) ->
            iter_gives (node_at root) te_ancestors (option_map node_from o) up) as Hte.
  { intros o (l&Hy&Hl) Ho. destruct o as [c|].
    - destruct (ancestors_yields root (c_path c) c (Ho c eq_refl)) as (l'&Hy'&_).
      exists l. split; [|done]. assert (l = map node_from l') as ->; [|by apply (te_ancestors_yields l' (Some c))].
      eapply yields_det; [exact Hy|]. by apply map_yields.
    - exists []. split; [by eapply yields_nil|]. inversion Hy; subst; [done|]. done. }
  destruct e as [n|t]; simpl in *.
  - pose proof (node_at_raw _ _ _ He) as [Hc Hn].
    assert (iter_gives (node_at root) tn_ancestors (Some (tn_raw n)) up) as H by (by apply anc_nodes). split.
    + destruct n as [c]. simpl in *. apply (Hte (Some c)); [done|]. intros ? [= <-]. destruct (cursor_at_path _ _ _ Hc) as [-> _]. done.
    + unfold tn_ancestors_new, ancestors_new. by rewrite Hn.
  - pose proof (tok_at_raw _ _ _ He) as [Hc Hn]. unfold tt_parent_ancestors_new.
    assert (iter_gives (node_at root) tn_ancestors (c_parent (tt_raw t)) up /\
            forall c, c_parent (tt_raw t) = Some c -> cursor_at root (c_path c) = Some c) as [H H'].
    { unfold up. destruct p as [|i p _] using rev_ind.
      - injection Hc as <-. split; [|done]. exists []. split; [by eapply yields_nil|done].
      - destruct (parent_snoc _ _ _ _ Hc) as (c0&H0&H0p&H0n). rewrite H0p, removelast_last. split.
        + destruct (p ++ [i]) eqn:E; [by destruct p|]. by apply anc_nodes.
        + intros ? [= <-]. destruct (cursor_at_path _ _ _ H0) as [-> _]. done. }
    split; [|done]. by apply Hte.
Qed.
Print Assumptions c76_ancestors.

(** the walks, with any set of subtrees skipped, and the descendants *)
Theorem c76_preorder root p n t (skipn : tnode -> bool) (skipe : telem -> bool) (prune : pos -> bool) :
  built root -> coherent root -> node_at root p n -> tsub (erase root) p = Some t ->
  ((forall q x, node_at root q x -> skipn x = prune q) ->
   exists evs, yields (tdrive tn_preorder skipn) (tn_preorder_new n) evs /\
     Forall2 (ev_gives (fun q => node_at root (p ++ q))) (twalk_pruned is_node (fun q => prune (p ++ q)) t) evs) /\
  ((forall q x, elem_at root q x -> skipe x = prune q) ->
   exists evs, yields (tdrive te_preorder skipe) (tn_preorder_new n) evs /\
     Forall2 (ev_gives (fun q => elem_at root (p ++ q))) (twalk_pruned any (fun q => prune (p ++ q)) t) evs).
Proof.
  intros Hb Hco [Hc Hn]%node_at_raw Ht. rewrite (cursor_at_tsub _ _ _ Hc) in Ht. injection Ht as <-.
  destruct (c18_skip_subtree root p _ prune Hb Hco Hc) as [(l1&Hy1&Hl1) (l2&Hy2&Hl2)]. split.
  - intros Hsk.
    assert (Hnode : forall e, e ∈ twalk_pruned is_node (fun q => prune (p ++ q)) (erase (c_green (tn_raw n))) ->
              forall d, cursor_at root (p ++ wget e) = Some d -> node_at root (p ++ wget e) (node_from d)).
    { intros e He d Hd. split; [done|]. rewrite tsub_app, (cursor_at_tsub _ _ _ Hc).
      eapply walk_nodes_are; [|by rewrite erase_is_node|exact He]. done. }
    exists (map (we_map node_from) l1). split.
    + apply drive_yields. eapply drive_ext; [exact Hy1|]. intros e He.
      apply elem_of_list_lookup in He as [j Hj]. destruct (Forall2_lookup_r _ _ _ _ _ Hl1 Hj) as (e'&He'&Hev).
      apply elem_of_list_lookup_2 in He'.
      assert (cursor_at root (p ++ wget e') = Some (wget e)) as Hat by (by destruct e', e).
      destruct (cursor_at_path _ _ _ Hat) as [-> _]. symmetry. apply Hsk. by apply Hnode.
    + eapply ev_gives_map; [done|]. intros e d He. by apply Hnode.
  - intros Hsk. exists (map (we_map elem_from) l2). split.
    + apply drive_yields. eapply drive_ext; [exact Hy2|]. intros e He.
      apply elem_of_list_lookup in He as [j Hj]. destruct (Forall2_lookup_r _ _ _ _ _ Hl2 Hj) as (e'&He'&Hev).
      assert (cursor_at root (p ++ wget e') = Some (wget e)) as Hat by (by destruct e', e).
      destruct (cursor_at_path _ _ _ Hat) as [-> _]. symmetry. apply Hsk. by apply elem_from_at.
    + eapply ev_gives_map; [done|]. intros e d He. by apply elem_from_at.
Qed.
Print Assumptions c76_preorder.
Theorem c76_descendants root p n t :
  built root -> coherent root -> node_at root p n -> tsub (erase root) p = Some t ->
  (exists l, tn_descendants n = Ok l /\ Forall2 (fun q => node_at root (p ++ q)) (walk_enters (twalk_nodes t)) l) /\
  (exists l, tn_descendants_with_tokens n = Ok l /\ Forall2 (fun q => elem_at root (p ++ q)) (positions t) l).
Proof.
  intros Hb Hco [Hc Hn]%node_at_raw Ht. rewrite (cursor_at_tsub _ _ _ Hc) in Ht. injection Ht as <-.
  destruct (c17_descendants root p _ Hb Hco Hc Hn) as [(l1&H1&Hl1) (l2&H2&Hl2)]. split.
  - exists (map node_from l1). unfold tn_descendants. rewrite H1. split; [done|]. eapply at_gives; [done|].
    intros q d Hq Hd. split; [done|]. rewrite tsub_app, (cursor_at_tsub _ _ _ Hc). simpl.
    assert (exists e, e ∈ twalk_nodes (erase (c_green (tn_raw n))) /\ wget e = q) as (e&He&<-).
    { clear -Hq. induction (twalk_nodes _) as [|e w IH]; [by apply elem_of_nil in Hq|]. destruct e as [q'|q']; simpl in Hq.
      - apply elem_of_cons in Hq as [->|Hq]; [exists (Enter q'); split; [by left|done]|].
        destruct (IH Hq) as (e&He&?). exists e. split; [by right|done].
      - destruct (IH Hq) as (e&He&?). exists e. split; [by right|done]. }
    rewrite twalk_nodes_eq_pruned in He by (by rewrite erase_is_node).
    eapply walk_nodes_are; [|by rewrite erase_is_node|exact He]. done.
  - exists (map elem_from l2). unfold tn_descendants_with_tokens. rewrite H2. split; [done|]. eapply at_gives; [done|].
    intros q d _ Hd. by apply elem_from_at.
Qed.
Print Assumptions c76_descendants.
Example c76_nonvacuous :
  built ex_g /\ coherent ex_g /\ node_at ex_g [] (node_from (ex_c [])) /\
  collect te_preorder 4 (tn_preorder_new (node_from (ex_c [1]))) =
    Ok [Enter (NTNode (node_from (ex_c [1]))); Leave (NTNode (node_from (ex_c [1])))] /\
  collect tn_children 9 (tn_children_new (node_from (ex_c []))) =
    Ok [node_from (ex_c [0]); node_from (ex_c [1]); node_from (ex_c [2]); node_from (ex_c [4])] /\
  (st ← tn_by_kind_new ex_kfr negb (tn_children_new (node_from (ex_c []))); collect (tn_by_kind ex_kfr negb) 9 st) =
    Ok [node_from (ex_c [0]); node_from (ex_c [4])] /\
  collect te_ancestors 9 (te_ancestors_new (elem_from (ex_c [4; 1]))) = Ok [node_from (ex_c [4]); node_from (ex_c [])].
Proof.
  split; [apply ex_g_ok|]. split; [apply ex_g_ok|]. split; [apply node_from_at; vm_compute; done|].
  vm_compute. done.
Qed.
