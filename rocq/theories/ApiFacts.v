(** * Facts about the typed layer *)
From Verif Require Export Api.

Lemma map_yields {S A B} (f : A -> B) (next : iter S A) s l : yields next s l -> yields (map_next f next) s (map f l).
Proof.
  induction 1 as [s s' H1 H2|s a s' l H _ IH]; simpl.
  - apply (yields_nil _ s s'); unfold map_next; by rewrite ?H1, ?H2.
  - eapply yields_cons; [|apply IH]. unfold map_next. by rewrite H.
Qed.

Lemma cursor_at_kind root p c : cursor_at root p = Some c -> tsub (erase root) p = Some (erase (c_green c)).
Proof. apply cursor_at_tsub. Qed.
Lemma erase_is_node c : is_node (erase (c_green c)) = c_is_node c.
Proof. unfold c_is_node. by destruct (c_green c). Qed.
Lemma node_from_at root p c : cursor_at root p = Some c -> c_is_node c = true -> node_at root p (node_from c).
Proof.
  intros H Hn. split; [done|]. rewrite (cursor_at_tsub _ _ _ H). unfold c_is_node in Hn.
  destruct (c_green c); [simpl; eauto|done].
Qed.
Lemma tok_from_at root p c : cursor_at root p = Some c -> c_is_node c = false -> tok_at root p (tok_from c).
Proof.
  intros H Hn. split; [done|]. rewrite (cursor_at_tsub _ _ _ H). unfold c_is_node in Hn.
  destruct (c_green c); [done|simpl; eauto].
Qed.
Lemma elem_from_at root p c : cursor_at root p = Some c -> elem_at root p (elem_from c).
Proof.
  intros H. unfold elem_from. destruct (c_is_node c) eqn:E; [by apply node_from_at|by apply tok_from_at].
Qed.
Lemma node_at_raw root p n : node_at root p n -> cursor_at root p = Some (tn_raw n) /\ c_is_node (tn_raw n) = true.
Proof.
  intros [H (k&cs&Ht)]. split; [done|]. rewrite (cursor_at_tsub _ _ _ H) in Ht. rewrite <- erase_is_node.
  by injection Ht as ->.
Qed.
Lemma tok_at_raw root p t : tok_at root p t -> cursor_at root p = Some (tt_raw t) /\ c_is_node (tt_raw t) = false.
Proof.
  intros [H (k&s&Ht)]. split; [done|]. rewrite (cursor_at_tsub _ _ _ H) in Ht. rewrite <- erase_is_node.
  by injection Ht as ->.
Qed.
Lemma elem_at_raw root p e : elem_at root p e -> cursor_at root p = Some (elem_into e) /\ elem_from (elem_into e) = e.
Proof.
  destruct e as [[c]|[c]]; simpl.
  - intros [H1 H2]%node_at_raw. split; [done|]. unfold elem_from, node_into. simpl in *. by rewrite H2.
  - intros [H1 H2]%tok_at_raw. split; [done|]. unfold elem_from, tok_into. simpl in *. by rewrite H2.
Qed.

(** the child of index [i] *)
Definition kid (p : pos) (i : nat) : pos := p ++ [i].

Lemma gives_child {A} (R : pos -> A -> Prop) (f : cursor -> A) (P : tree -> bool) root p c r o :
  cursor_at root p = Some c -> answer root p r o ->
  (forall i, o = Some i -> exists t, tchildren (erase (c_green c)) !! i = Some t /\ P t = true) ->
  (forall q d, cursor_at root q = Some d -> P (erase (c_green d)) = true -> R q (f d)) ->
  gives R (opt_map f r) (kid p <$> o).
Proof.
  intros Hc Ha Ho HR. unfold gives. rewrite Ha. destruct o as [i|]; simpl.
  - destruct (Ho i eq_refl) as (t&Ht&HP).
    destruct (cursor_at root (p ++ [i])) as [d|] eqn:E; simpl.
    + exists (Some (f d)). split; [done|]. apply HR; [done|].
      pose proof (cursor_at_tsub _ _ _ E) as E2. rewrite tsub_app, (cursor_at_tsub _ _ _ Hc) in E2. simpl in E2.
      rewrite Ht in E2. simpl in E2. by injection E2 as <-.
    + exfalso. apply cursor_at_None in E. pose proof (cursor_at_sub root (p ++ [i])) as E2.
      apply cursor_at_None in E. rewrite E in E2. simpl in E2. rewrite tsub_app, (cursor_at_tsub _ _ _ Hc) in E2. simpl in E2.
      rewrite Ht in E2. done.
  - exists None. done.
Qed.
Lemma first_from_sat {A} (P : A -> bool) l lo o i : is_first_from P l lo o -> o = Some i -> exists t, l !! i = Some t /\ P t = true.
Proof. intros H ->. destruct H as (_&H&_). done. Qed.
Lemma last_below_sat {A} (P : A -> bool) l hi o i : is_last_below P l hi o -> o = Some i -> exists t, l !! i = Some t /\ P t = true.
Proof. intros H ->. destruct H as (_&H&_). done. Qed.

(** the two ways to read an answer: as a node, as an element *)
Lemma gives_node root p c r o (P : tree -> bool) :
  cursor_at root p = Some c -> answer root p r o ->
  (forall i, o = Some i -> exists t, tchildren (erase (c_green c)) !! i = Some t /\ P t = true) ->
  (forall t, P t = true -> is_node t = true) ->
  gives (node_at root) (opt_map node_from r) (kid p <$> o).
Proof.
  intros Hc Ha Ho HP. eapply (gives_child _ _ P); [done..|]. intros q d Hd Hn%HP. apply node_from_at; [done|].
  by rewrite <- erase_is_node.
Qed.
Lemma gives_elem root p c r o (P : tree -> bool) :
  cursor_at root p = Some c -> answer root p r o ->
  (forall i, o = Some i -> exists t, tchildren (erase (c_green c)) !! i = Some t /\ P t = true) ->
  gives (elem_at root) (opt_map elem_from r) (kid p <$> o).
Proof. intros Hc Ha Ho. eapply (gives_child _ _ P); [done..|]. intros q d Hd _. by apply elem_from_at. Qed.

Lemma gives_at {A} (R : pos -> A -> Prop) f root o :
  (forall q, o = Some q -> is_Some (cursor_at root q)) ->
  (forall q d, o = Some q -> cursor_at root q = Some d -> R q (f d)) -> gives R (opt_map f (Ok (o ≫= cursor_at root))) o.
Proof.
  intros H1 H2. unfold gives. destruct o as [q|]; simpl; [|by exists None].
  destruct (H1 q eq_refl) as [d Hd]. rewrite Hd. simpl. exists (Some (f d)). split; [done|]. by apply H2.
Qed.

Lemma map_gives {S A} (R : pos -> A -> Prop) (f : cursor -> A) (next : iter S cursor) s root ps l :
  yields next s l -> Forall2 (fun q c => cursor_at root q = Some c) ps l ->
  (forall q c, q ∈ ps -> cursor_at root q = Some c -> R q (f c)) ->
  iter_gives R (map_next f next) s ps.
Proof.
  intros Hy Hl HR. exists (map f l). split; [by apply map_yields|].
  clear Hy. induction Hl as [|q c ps l Hqc _ IH]; simpl; constructor.
  - apply HR; [by left|done].
  - apply IH. intros q' c' Hq'. apply HR. by right.
Qed.

Lemma at_children_kid root p is l :
  at_children root p is l -> Forall2 (fun q c => cursor_at root q = Some c) (map (kid p) is) l.
Proof. induction 1; simpl; by constructor. Qed.

Lemma sel_go_sat {A} (P : A -> bool) n l i : i ∈ sel_go P n l -> exists x, n <= i /\ l !! (i - n) = Some x /\ P x = true.
Proof.
  revert n. induction l as [|x l IH]; intros n; simpl; [by intros ?%elem_of_nil|].
  assert (Htl : i ∈ sel_go P (S n) l -> exists y, n <= i /\ (x :: l) !! (i - n) = Some y /\ P y = true).
  { intros (y&Hy1&Hy2&Hy3)%IH. exists y. split; [lia|]. split; [|done]. replace (i - n) with (S (i - S n)) by lia. done. }
  destruct (P x) eqn:E; [|done].
  intros [->|H]%elem_of_cons; [|by apply Htl]. exists x. rewrite Nat.sub_diag. split; [lia|done].
Qed.
Lemma sel_from_sat {A} (P : A -> bool) l lo i : i ∈ sel_from P l lo -> exists x, l !! i = Some x /\ P x = true.
Proof.
  intros (x&H1&H2&H3)%sel_go_sat. exists x. split; [|done]. rewrite lookup_drop in H2.
  by replace (lo + (i - lo)) with i in H2 by lia.
Qed.
Lemma sel_below_sat {A} (P : A -> bool) l hi i : i ∈ sel_below P l hi -> exists x, l !! i = Some x /\ P x = true.
Proof.
  unfold sel_below. rewrite elem_of_list_In, <- in_rev, <- elem_of_list_In. intros (x&H1&H2&H3)%sel_go_sat. exists x. split; [|done].
  rewrite Nat.sub_0_r in H2. by apply lookup_take_Some in H2 as [H2 _].
Qed.

Lemma kid_sat root p c i d t :
  cursor_at root p = Some c -> cursor_at root (kid p i) = Some d -> tchildren (erase (c_green c)) !! i = Some t ->
  erase (c_green d) = t.
Proof.
  intros Hc Hd Ht. pose proof (cursor_at_tsub _ _ _ Hd) as E2. unfold kid in E2.
  rewrite tsub_app, (cursor_at_tsub _ _ _ Hc) in E2. simpl in E2. rewrite Ht in E2. simpl in E2. by injection E2 as <-.
Qed.

Lemma map_kids_node {S} root p c (next : iter S cursor) s is l :
  cursor_at root p = Some c -> yields next s l -> at_children root p is l ->
  (forall i, i ∈ is -> exists t, tchildren (erase (c_green c)) !! i = Some t /\ is_node t = true) ->
  iter_gives (node_at root) (map_next node_from next) s (map (kid p) is).
Proof.
  intros Hc Hy Hl Hs. eapply map_gives; [done|by apply at_children_kid|].
  intros q d (i&->&Hi)%elem_of_list_fmap Hd. apply node_from_at; [done|].
  destruct (Hs i Hi) as (t&Ht&Hn). rewrite <- erase_is_node. by rewrite (kid_sat _ _ _ _ _ _ Hc Hd Ht).
Qed.
Lemma map_elems {S} root (next : iter S cursor) s ps l :
  yields next s l -> Forall2 (fun q c => cursor_at root q = Some c) ps l ->
  iter_gives (elem_at root) (map_next elem_from next) s ps.
Proof. intros Hy Hl. eapply map_gives; [done..|]. intros q d _ Hd. by apply elem_from_at. Qed.
Lemma map_kids_elem {S} root p (next : iter S cursor) s is l :
  yields next s l -> at_children root p is l ->
  iter_gives (elem_at root) (map_next elem_from next) s (map (kid p) is).
Proof. intros Hy Hl. eapply map_elems; [done|by apply at_children_kid]. Qed.

(** proper ancestors are nodes *)
Lemma above_is_node root p q c d :
  cursor_at root (p ++ q) = Some d -> q <> [] -> cursor_at root p = Some c -> c_is_node c = true.
Proof.
  intros Hd Hq Hc. destruct q as [|i q]; [done|]. pose proof (cursor_at_tsub _ _ _ Hd) as E.
  rewrite tsub_app, (cursor_at_tsub _ _ _ Hc) in E. simpl in E.
  destruct (tchildren (erase (c_green c)) !! i) eqn:E2; [|done]. rewrite <- erase_is_node.
  destruct (erase (c_green c)); [done|]. simpl in E2. by rewrite lookup_nil in E2.
Qed.
Lemma prefixes_rev_prefix p q : q ∈ prefixes_rev p -> exists q', p = q ++ q'.
Proof.
  revert q. induction p as [|i p IH]; intros q; simpl.
  - intros ->%elem_of_list_singleton. by exists [].
  - intros [H|H]%elem_of_app; [|apply elem_of_list_singleton in H as ->; by eexists].
    apply elem_of_list_fmap in H as (q1&->&Hq). destruct (IH q1 Hq) as [q' ->]. by exists q'.
Qed.
Lemma anc_nodes root p c :
  cursor_at root p = Some c -> c_is_node c = true ->
  iter_gives (node_at root) (map_next node_from ancestors_next) (Some c) (prefixes_rev p).
Proof.
  intros Hc Hn. destruct (ancestors_yields root p c Hc) as (l&Hy&Hl). eapply map_gives; [done..|].
  intros q d (q'&->)%prefixes_rev_prefix Hd. apply node_from_at; [done|].
  destruct q' as [|i q']; [|by eapply above_is_node].
  rewrite app_nil_r in Hc. rewrite Hc in Hd. by injection Hd as <-.
Qed.
Lemma parent_snoc root p i c : cursor_at root (p ++ [i]) = Some c -> exists c0, cursor_at root p = Some c0 /\ c_parent c = Some c0 /\ c_is_node c0 = true.
Proof.
  intros Hc. destruct (cursor_at_prefix _ _ _ _ Hc) as [c0 H0]. exists c0. split; [done|].
  destruct (sib_shape root p i c c0 Hc H0) as [-> _]. split; [done|]. by eapply above_is_node.
Qed.

(** the typed [successors] over [parent] is the raw one *)
Lemma te_ancestors_yields l o :
  yields ancestors_next o l -> yields te_ancestors (option_map node_from o) (map node_from l).
Proof.
  induction 1 as [s s' H1 H2|s a s' l H _ IH]; simpl.
  - destruct s; simpl in *; [by unfold ancestors_next, successors_next in H1; simpl in H1|]. by eapply yields_nil.
  - unfold ancestors_next, successors_next in H. destruct s as [x|]; simpl in *; [|done]. injection H as <- <-.
    eapply yields_cons; [done|]. unfold tn_parent. simpl. by destruct (c_parent x).
Qed.

(** ** Tokens *)
Lemma leftmost_token x q : leftmost x = Some q -> exists k s, tsub x q = Some (Token k s).
Proof.
  revert q. induction x as [k cs IH|k s] using tree_ind'; intros q; simpl; [|intros [= <-]; simpl; eauto].
  destruct cs as [|c cs]; [done|]. apply Forall_cons in IH as [IH _]. destruct (leftmost c) as [q'|] eqn:E; [|done].
  intros [= <-]. simpl. by apply IH.
Qed.
Lemma rightmost_token x q : rightmost x = Some q -> exists k s, tsub x q = Some (Token k s).
Proof.
  revert q. induction x as [k cs IH|k s] using tree_ind'; intros q; [|intros [= <-]; simpl; eauto].
  rewrite rightmost_node, rm_go_last. destruct (last cs) as [c|] eqn:E; [|done]. destruct (rightmost c) as [q'|] eqn:Er; [|done]. intros [= <-].
  apply last_Some in E as [cs' ->]. rewrite app_length. simpl. replace (length cs' + 1 - 1) with (length cs') by lia.
  rewrite lookup_app_r, Nat.sub_diag by lia. simpl. apply Forall_app in IH as [_ IH]. apply Forall_cons in IH as [IH _]. by apply IH.
Qed.
Lemma tok_at_tsub root q d k s : cursor_at root q = Some d -> tsub (erase root) q = Some (Token k s) -> tok_at root q (tok_from d).
Proof. intros Hd Ht. split; [done|]. eauto. Qed.
Lemma gives_tok root o :
  (forall q, o = Some q -> exists k s, tsub (erase root) q = Some (Token k s)) ->
  gives (tok_at root) (opt_map tok_from (Ok (o ≫= cursor_at root))) o.
Proof.
  intros H. apply gives_at.
  - intros q Hq. destruct (H q Hq) as (k&s&Ht). apply cursor_at_is_Some. by rewrite Ht.
  - intros q d Hq Hd. destruct (H q Hq) as (k&s&Ht). by eapply tok_at_tsub.
Qed.
Lemma elem_of_token_positions t q : q ∈ token_positions t -> exists k s, tsub t q = Some (Token k s).
Proof.
  unfold token_positions. generalize (positions t). intros l. induction l as [|p l IH]; simpl; [by intros ?%elem_of_nil|].
  destruct (tsub t p) as [[|k s]|] eqn:E; [done| |done]. intros [->|Hq]%elem_of_cons; [eauto|by apply IH].
Qed.

(** ** Walks *)
Lemma walk_sel_list sel prune i cs e :
  e ∈ walk_list sel prune i cs ->
  (forall c pr e, c ∈ cs -> e ∈ twalk_pruned sel pr c -> exists x, tsub c (wget e) = Some x /\ (wget e = [] \/ sel x = true)) ->
  exists j q c x, wget e = j :: q /\ i <= j /\ cs !! (j - i) = Some c /\ tsub c q = Some x /\ sel x = true.
Proof.
  revert i. induction cs as [|c cs IH]; intros i; simpl; [by intros ?%elem_of_nil|].
  intros [H|H]%elem_of_app Hc.
  - destruct (sel c) eqn:E; [|by apply elem_of_nil in H]. apply elem_of_list_fmap in H as (e'&->&He').
    destruct (Hc c _ e' (elem_of_list_here _ _) He') as (x&Hx&Hs). exists i, (wget e'), c, x.
    split; [by destruct e'|]. split; [lia|]. rewrite Nat.sub_diag. split; [done|]. split; [done|].
    destruct Hs as [Hs|]; [|done]. rewrite Hs in Hx. by injection Hx as <-.
  - destruct (IH (S i) H) as (j&q&d&x&H1&H2&H3&H4&H5). { intros d pr e' Hd. apply Hc. by right. }
    exists j, q, d, x. split; [done|]. split; [lia|]. replace (j - i) with (S (j - S i)) by lia. done.
Qed.
Lemma walk_sel sel prune t e :
  e ∈ twalk_pruned sel prune t -> exists x, tsub t (wget e) = Some x /\ (wget e = [] \/ sel x = true).
Proof.
  revert prune e. induction t as [k cs IH|k s] using tree_ind'; intros prune e; rewrite twalk_pruned_eq.
  - intros [->|[H| ->%elem_of_list_singleton]%elem_of_app]%elem_of_cons; [simpl; eauto| |simpl; eauto].
    destruct (prune []); [by apply elem_of_nil in H|]. simpl in H.
    apply walk_sel_list in H as (j&q&c&x&E&_&Hc&Hx&Hs).
    + exists x. destruct e; simpl in E; subst; simpl; rewrite Nat.sub_0_r in Hc; rewrite Hc; simpl; eauto.
    + intros c pr e' Hc He'. rewrite Forall_forall in IH. by eapply IH.
  - simpl. intros [->|[H| ->%elem_of_list_singleton]%elem_of_app]%elem_of_cons; [simpl; eauto| |simpl; eauto].
    destruct (prune []); by apply elem_of_nil in H.
Qed.
Lemma walk_nodes_are sel prune t e :
  (forall x, sel x = true -> is_node x = true) -> is_node t = true -> e ∈ twalk_pruned sel prune t ->
  exists k cs, tsub t (wget e) = Some (Node k cs).
Proof.
  intros Hsel Ht (x&Hx&Hs)%walk_sel. assert (is_node x = true) as Hn.
  { destruct Hs as [E|E]; [|by apply Hsel]. rewrite E in Hx. by injection Hx as <-. }
  rewrite Hx. destruct x; [eauto|done].
Qed.
Lemma ev_gives_map {A} (R : pos -> A -> Prop) (f : cursor -> A) root p w evs :
  Forall2 (ev_at root p) w evs ->
  (forall e d, e ∈ w -> cursor_at root (p ++ wget e) = Some d -> R (p ++ wget e) (f d)) ->
  Forall2 (ev_gives (fun q => R (p ++ q))) w (map (we_map f) evs).
Proof.
  induction 1 as [|e e' w evs He _ IH]; intros HR; simpl; constructor.
  - pose proof (HR e) as He2. destruct e as [q|q], e' as [d|d]; simpl in *; try done; (apply He2; [by left|done]).
  - apply IH. intros e2 d H2. apply HR. by right.
Qed.
Lemma at_gives {A} (R : pos -> A -> Prop) (f : cursor -> A) root p qs l :
  Forall2 (fun q d => cursor_at root (p ++ q) = Some d) qs l ->
  (forall q d, q ∈ qs -> cursor_at root (p ++ q) = Some d -> R (p ++ q) (f d)) ->
  Forall2 (fun q => R (p ++ q)) qs (map f l).
Proof.
  induction 1 as [|q d qs l H _ IH]; intros HR; simpl; constructor.
  - apply HR; [by left|done].
  - apply IH. intros q2 d2 H2. apply HR. by right.
Qed.

(** a client that calls [skip_subtree] after the [Enter] events of some elements *)
(** specification: a loop over a typed walk with [skip_subtree] (api.rs:480-491, 498-509) *)
Definition tdrive {A} (next : iter preorder (wevent A)) (skip : A -> bool) : iter preorder (wevent A) := fun po =>
  '(o, po') ← next po;
  Ok (o, match o with Some (Enter c) => if skip c then skip_subtree po' else po' | _ => po' end).
Lemma drive_ext next s1 s2 po l :
  yields (drive next s1) po l -> (forall e, e ∈ l -> s1 (wget e) = s2 (wget e)) -> yields (drive next s2) po l.
Proof.
  induction 1 as [s s' H1 H2|s a s' l H _ IH]; intros He.
  - unfold drive in *. destruct (next s) as [[[a|] po']|] eqn:E1; simpl in *; try done. injection H1 as ->.
    destruct (next s') as [[[a|] po']|] eqn:E2; simpl in *; try done.
    injection H2 as ->. apply (yields_nil _ s s'); by rewrite ?E1, ?E2.
  - eapply yields_cons; [|apply IH; intros e ?; apply He; by right].
    unfold drive in *. destruct (next s) as [[[e|] po']|] eqn:E1; simpl in *; try done. injection H as <- <-.
    destruct e as [c|c]; [|done]. pose proof (He (Enter c) (elem_of_list_here _ _)) as Hs. simpl in Hs. by rewrite Hs.
Qed.
Lemma drive_yields {A} (f : cursor -> A) next skip po l :
  yields (drive next (fun c => skip (f c))) po l ->
  yields (tdrive (map_next (we_map f) next) skip) po (map (we_map f) l).
Proof.
  induction 1 as [s s' H1 H2|s a s' l H _ IH]; simpl.
  - unfold drive, tdrive, map_next in *. destruct (next s) as [[[a|] po']|] eqn:E1; simpl in *; try done. injection H1 as ->.
    destruct (next s') as [[[a|] po']|] eqn:E2; simpl in *; try done.
    injection H2 as ->. apply (yields_nil _ s s'); by rewrite ?E1, ?E2.
  - eapply yields_cons; [|apply IH]. unfold drive, tdrive, map_next in *.
    destruct (next s) as [[[e|] po']|] eqn:E1; simpl in *; try done. injection H as <- <-. by destruct e.
Qed.
