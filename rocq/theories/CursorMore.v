(** * Equality of elements, functional replacement, reachability *)
From Verif Require Export BuilderFacts Search.
Local Open Scope N_scope.

(** ** The trees of the green API are exactly the well-formed ones *)
Lemma wfg_built g : wfg g -> built g.
Proof.
  induction g as [a k tl cs IH|a k s] using green_ind'; intros Hw.
  - pose proof (wfg_kids _ Hw) as Hk.
    apply (built_node a k (kids (GNode a k tl cs))).
    + rewrite Forall_lookup in Hk |- *. intros i x Hx. pose proof (Hk i x Hx) as Hwx.
      unfold kids in Hx. simpl in Hx. rewrite lookup_map in Hx.
      destruct (cs !! i) as [ch|] eqn:E; [|done]. injection Hx as <-.
      rewrite Forall_lookup in IH. by apply (IH i ch E).
    + destruct (wfg_node_canonical _ _ _ _ Hw) as [H1 H2].
      rewrite green_new_fits; [|done|].
      * unfold kids. simpl. by rewrite <- H1, <- H2.
      * pose proof (wfg_bound _ Hw) as Hb. by rewrite gtext_kids in Hb.
  - apply (built_token a k s). apply (wfg_bound _ Hw).
Qed.
Lemma built_iff_wfg g : built g <-> wfg g.
Proof. split; [apply built_wfg|apply wfg_built]. Qed.
Lemma builder_built env c ops g :
  cenv_ok env -> cache_reachable env Checked c -> b_build env Checked c ops = Ok g ->
  built g /\ coherent g /\ gis_node g = true.
Proof.
  intros H1 H2 H3. destruct (b_build_wf _ _ _ _ _ H1 H2 H3) as (Hw&Hc&Hn). split; [|done]. by apply wfg_built, Hw.
Qed.

(** ** Positions *)
Lemma pos_cases (p q : pos) :
  ancestor_or_self p q \/ ancestor_or_self q p \/
  exists r i j p' q', p = r ++ i :: p' /\ q = r ++ j :: q' /\ i <> j.
Proof.
  revert q. induction p as [|i p IH]; intros q; [left; by exists q|].
  destruct q as [|j q]; [right; left; by exists (i :: p)|].
  destruct (decide (i = j)) as [->|Hne].
  - destruct (IH q) as [[r ->]|[[r ->]|(r&a&b&p'&q'&->&->&Hab)]].
    + left. by exists r.
    + right. left. by exists r.
    + right. right. exists (j :: r), a, b, p', q'. done.
  - right. right. exists [], i, j, p, q. done.
Qed.

Section eq.
Context (root : green) (Hwf : wfg root).

Lemma gsize_descendant p q c d :
  cursor_at root p = Some c -> cursor_at root (p ++ q) = Some d -> q <> [] ->
  (gsize (c_green d) < gsize (c_green c))%nat.
Proof using Hwf.
  revert d. induction q as [|i q IH] using rev_ind; intros d Hc Hd Hne; [done|].
  rewrite app_assoc in Hd. destruct (cursor_at_prefix _ _ _ _ Hd) as [e He].
  destruct (child_cursor root Hwf _ _ _ _ He Hd) as (_&_&Hs&_).
  destruct q as [|j q]; [rewrite app_nil_r in He; assert (e = c) as -> by congruence; done|].
  specialize (IH e Hc He ltac:(done)). lia.
Qed.
Lemma disjoint_ranges r i j p' q' c d :
  cursor_at root (r ++ i :: p') = Some c -> cursor_at root (r ++ j :: q') = Some d -> (i < j)%nat ->
  (crange c).2 <= (crange d).1.
Proof using Hwf.
  intros Hc Hd Hij.
  replace (r ++ i :: p') with ((r ++ [i]) ++ p') in Hc by (by rewrite <- app_assoc).
  replace (r ++ j :: q') with ((r ++ [j]) ++ q') in Hd by (by rewrite <- app_assoc).
  destruct (cursor_at_prefix _ _ _ _ Hc) as [ci Hci]. destruct (cursor_at_prefix _ _ _ _ Hd) as [dj Hdj].
  destruct (cursor_at_prefix _ _ _ _ Hci) as [e He].
  pose proof (crange_descendant root Hwf _ _ _ _ Hci Hc) as [_ H1].
  pose proof (crange_descendant root Hwf _ _ _ _ Hdj Hd) as [H2 _].
  pose proof (cstart_lookup_mono root Hwf _ _ _ _ _ _ He Hci Hdj Hij).
  unfold crange in *. simpl in *. lia.
Qed.
Lemma c_eqb_true c d : c_eqb c d = true <-> gaddr (c_green c) = gaddr (c_green d) /\ c_offset c = c_offset d.
Proof using Type. unfold c_eqb. by rewrite andb_true_iff, Nat.eqb_eq, N.eqb_eq. Qed.
Lemma eqb_exact p q c d :
  coherent root -> cursor_at root p = Some c -> cursor_at root q = Some d -> c_eqb c d = true ->
  c_green c = c_green d /\ crange c = crange d /\
  (p = q \/ (gtext (c_green c) = [] /\ ~ ancestor_or_self p q /\ ~ ancestor_or_self q p)).
Proof using Hwf.
  intros Hco Hc Hd [Ha Ho]%c_eqb_true.
  assert (Hg : c_green c = c_green d).
  { eapply Hco; [by apply cursor_at_gsub|by apply cursor_at_gsub|done]. }
  assert (Hr : crange c = crange d) by (unfold crange; by rewrite Hg, Ho).
  split; [done|]. split; [done|].
  destruct (decide (p = q)) as [->|Hne]; [by left|right].
  assert (H1 : ~ ancestor_or_self p q).
  { intros [r ->]. assert (r <> []) by (intros ->; by rewrite app_nil_r in Hne).
    pose proof (gsize_descendant _ _ _ _ Hc Hd ltac:(done)). rewrite Hg in *. lia. }
  assert (H2 : ~ ancestor_or_self q p).
  { intros [r ->]. assert (r <> []) by (intros ->; by rewrite app_nil_r in Hne).
    pose proof (gsize_descendant _ _ _ _ Hd Hc ltac:(done)). rewrite Hg in *. lia. }
  split; [|done]. destruct (pos_cases p q) as [?|[?|(r&i&j&p'&q'&->&->&Hij)]]; [done|done|].
  assert (blen (gtext (c_green c)) = 0) as Hz.
  { destruct (Nat.lt_gt_cases i j) as [[Hlt|Hlt] _]; [done| |].
    - pose proof (disjoint_ranges _ _ _ _ _ _ _ Hc Hd Hlt). unfold crange in *. simpl in *. rewrite Hg in *. lia.
    - pose proof (disjoint_ranges _ _ _ _ _ _ _ Hd Hc Hlt). unfold crange in *. simpl in *. rewrite Hg in *. lia. }
  by apply blen_0.
Qed.
End eq.

(** ** replace_with *)
Lemma treplace_app t p q new x :
  tsub t p = Some x -> treplace t (p ++ q) new = treplace t p (treplace x q new).
Proof.
  revert t. induction p as [|i p IH]; intros t; simpl; [by intros [= ->]|].
  destruct t as [k cs|]; [|done]. simpl. destruct (cs !! i) as [c|] eqn:E; [|done]. intros Hx. f_equal.
  apply list_eq. intros j. destruct (decide (i = j)) as [<-|].
  - rewrite !list_lookup_alter, E. simpl. f_equal. by apply IH.
  - by rewrite !list_lookup_alter_ne.
Qed.
Lemma gsub_app g p q : gsub g (p ++ q) = gsub g p ≫= fun x => gsub x q.
Proof. revert g. induction p as [|i p IH]; intros g; simpl; [done|]. by destruct (gchildren g !! i). Qed.
Lemma gsub_kids g i p : gsub g (i :: p) = kids g !! i ≫= fun x => gsub x p.
Proof. simpl. unfold kids. rewrite lookup_map. by destruct (gchildren g !! i). Qed.
Lemma treplace_text_le t p x new : tsub t p = Some x -> (blen (ttext new) <= blen (ttext (treplace t p new))).
Proof. intros H. destruct (treplace_text t p x new H) as (q&_&->). rewrite !blen_app. lia. Qed.

(** proof device, no counterpart in the code *)
Definition replaced (root : green) (p : pos) (new g' : green) : Prop :=
  wfg g' /\ erase g' = treplace (erase root) p (erase new) /\ gsub g' p = Some new /\
  forall q, ~ ancestor_or_self q p -> ~ ancestor_or_self p q -> gsub g' q = gsub root q.
Lemma replace_step root al p i c c0 new :
  wfg root -> wfg new -> cursor_at root p = Some c0 -> cursor_at root (p ++ [i]) = Some c ->
  match green_replace_child Checked al (c_green c0) i new with
  | Ok g1 => wfg g1 /\ gkind g1 = gkind (c_green c0) /\ erase g1 = treplace (erase (c_green c0)) [i] (erase new) /\
             kids g1 = <[i:=new]> (kids (c_green c0))
  | Err e => e = Panic /\ u32_max < blen (ttext (treplace (erase (c_green c0)) [i] (erase new)))
  end.
Proof.
  intros Hwf Hn H0 Hc. pose proof (cursor_at_wfg root Hwf _ _ H0) as Hw0.
  pose proof (cursor_at_snoc_inv _ _ _ _ Hc) as (c1&ch&Hc1&Hch&_). assert (c1 = c0) as -> by congruence.
  assert (Hnode : gis_node (c_green c0) = true) by (destruct (c_green c0); done).
  assert (He : forall g1, gkind g1 = gkind (c_green c0) -> gis_node g1 = true -> kids g1 = <[i:=new]> (kids (c_green c0)) ->
     erase g1 = treplace (erase (c_green c0)) [i] (erase new)).
  { intros g1 H1 H2 H3. destruct (c_green c0) as [a k tl cs|] eqn:E0; [|done]. destruct g1 as [a1 k1 tl1 cs1|]; [|done].
    simpl in *. subst k1. f_equal. unfold kids in H3. simpl in H3.
    apply (f_equal (map erase)) in H3. rewrite map_map in H3. rewrite H3.
    rewrite <- (map_map snd erase). generalize (map snd cs). intros l. apply list_eq. intros j.
    destruct (decide (i = j)) as [<-|].
    - rewrite list_lookup_alter, !lookup_map. destruct (l !! i) as [x|] eqn:Ex.
      + rewrite list_lookup_insert by (by eapply lookup_lt_Some). done.
      + rewrite list_insert_ge by (by apply lookup_ge_None). by rewrite Ex.
    - rewrite list_lookup_alter_ne, !lookup_map, list_lookup_insert_ne by done. done. }
  pose proof (replace_exact al (c_green c0) i new Hw0 Hn) as H.
  destruct (green_replace_child Checked al (c_green c0) i new) as [g1|e] eqn:E.
  - destruct H as (H1&H2&H3). split_and!; [|done|by apply He|done].
    apply built_wfg. eapply built_replace; [| |exact E]; by apply wfg_built.
  - destruct H as [-> H]. split; [done|].
    rewrite gctext_ctext in H. destruct (c_green c0) as [a k tl cs|] eqn:E0; [|done]. simpl in *.
    replace (alter (fun _ => erase new) i (map (fun c => erase c.2) cs)) with (map erase (<[i:=new]> (kids (GNode a k tl cs)))); [done|].
    unfold kids. simpl. rewrite <- (map_map snd erase). generalize (map snd cs). intros l. apply list_eq. intros j.
    destruct (decide (i = j)) as [<-|].
    + rewrite list_lookup_alter, !lookup_map. destruct (l !! i) as [x|] eqn:Ex.
      * rewrite list_lookup_insert by (by eapply lookup_lt_Some). done.
      * rewrite list_insert_ge by (by apply lookup_ge_None). by rewrite Ex.
    + rewrite list_lookup_alter_ne, !lookup_map, list_lookup_insert_ne by done. done.
Qed.
Lemma replace_with_at root al p c new :
  wfg root -> wfg new -> cursor_at root p = Some c ->
  match replace_with al c new with
  | Ok g' => gkind (c_green c) = gkind new /\ replaced root p new g'
  | Err e => e = Panic /\ (gkind (c_green c) <> gkind new \/ u32_max < blen (ttext (treplace (erase root) p (erase new))))
  end.
Proof.
  intros Hwf. revert al c new. induction p as [|i p IH] using rev_ind; intros al c new Hn Hc.
  - injection Hc as <-. simpl. destruct (N.eqb_spec (gkind root) (gkind new)) as [Hk|Hk]; simpl; [|by auto].
    split; [done|]. split_and!; [done|done|done|]. intros q _ H. exfalso. apply H. by exists q.
  - destruct (cursor_at_prefix _ _ _ _ Hc) as [c0 H0].
    destruct (sib_shape root p i c c0 Hc H0) as [Hs _]. rewrite Hs. cbn [replace_with c_green].
    pose proof (replace_step root (al O) p i c c0 new Hwf Hn H0 Hc) as Hst.
    destruct (N.eqb_spec (gkind (c_green c)) (gkind new)) as [Hk|Hk]; cbn [rassert mbind res_bind]; [|by auto].
    rewrite (treplace_app _ _ _ _ _ (cursor_at_tsub _ _ _ H0)).
    destruct (green_replace_child _ _ _ _ _) as [g1|e]; cbn [mbind res_bind].
    2:{ destruct Hst as [-> Hst]. split; [done|]. right.
        pose proof (treplace_text_le _ p _ (treplace (erase (c_green c0)) [i] (erase new)) (cursor_at_tsub _ _ _ H0)). lia. }
    destruct Hst as (Hw1&Hk1&He1&Hkids). specialize (IH (fun n => al (S n)) c0 g1 Hw1 H0).
    destruct (replace_with _ c0 g1) as [g'|e].
    2:{ destruct IH as [-> [IH|IH]]; [congruence|]. rewrite He1 in IH. auto. }
    destruct IH as [_ (Hw'&He'&Hp&Hoff)]. split; [done|]. rewrite He1 in He'.
    assert (Hi : kids (c_green c0) !! i <> None).
    { pose proof (cursor_at_snoc_inv _ _ _ _ Hc) as (c1&ch&Hc1&Hch&_). assert (c1 = c0) as -> by congruence.
      unfold kids. by rewrite lookup_map, Hch. }
    unfold replaced. rewrite (treplace_app _ _ _ _ _ (cursor_at_tsub _ _ _ H0)). split_and!; [done|done| |].
    + rewrite gsub_app, Hp. cbn [mbind option_bind]. rewrite gsub_kids, Hkids, list_lookup_insert; [done|].
      apply lookup_lt_is_Some. by destruct (kids (c_green c0) !! i).
    + intros q Hq1 Hq2. destruct (pos_cases p q) as [[r ->]|[[r ->]|(r&a&b&p'&q'&->&->&Hab)]].
      * destruct r as [|j r]; [exfalso; apply Hq1; rewrite app_nil_r; by exists [i]|].
        rewrite !gsub_app, Hp, (cursor_at_gsub _ _ _ H0). cbn [mbind option_bind].
        rewrite !gsub_kids, Hkids, list_lookup_insert_ne; [done|]. intros <-. apply Hq2. exists r. by rewrite <- app_assoc.
      * exfalso. apply Hq1. exists (r ++ [i]). by rewrite app_assoc.
      * apply Hoff; intros [s Hs']; rewrite <- app_assoc in Hs'; apply app_inv_head in Hs'; injection Hs'; congruence.
Qed.
Lemma token_replace_with_at root al p c new :
  wfg root -> wfg new -> cursor_at root p = Some c ->
  match token_replace_with al c new with
  | Ok g' => p <> [] /\ gkind (c_green c) = gkind new /\ replaced root p new g'
  | Err e => e = Panic /\
      (p = [] \/ gkind (c_green c) <> gkind new \/ u32_max < blen (ttext (treplace (erase root) p (erase new))))
  end.
Proof.
  intros Hwf Hn Hc. pose proof (replace_with_at root al p c new Hwf Hn Hc) as H.
  destruct p as [|i p _] using rev_ind.
  - injection Hc as <-. unfold token_replace_with. simpl. destruct (gkind root =? gkind new); simpl; auto.
  - destruct (cursor_at_prefix _ _ _ _ Hc) as [c0 H0].
    destruct (sib_shape root p i c c0 Hc H0) as [Hs _].
    assert (token_replace_with al c new = replace_with al c new) as -> by (rewrite Hs; done).
    destruct (replace_with al c new) as [g'|e].
    + split; [by destruct p|]. done.
    + destruct H as [-> [H|H]]; auto.
Qed.

(** ** Reachability by navigation *)
(** proof device, no counterpart in the code *)
Inductive nav_fn : (cursor -> res (option cursor)) -> Prop :=
| nf_fc : nav_fn first_child
| nf_fck m : nav_fn (first_child_by_kind m)
| nf_lc : nav_fn last_child
| nf_fct : nav_fn first_child_or_token
| nf_fctk m : nav_fn (first_child_or_token_by_kind m)
| nf_lct : nav_fn last_child_or_token
| nf_ns : nav_fn next_sibling
| nf_nsk m : nav_fn (next_sibling_by_kind m)
| nf_ps : nav_fn prev_sibling
| nf_nst : nav_fn next_sibling_or_token
| nf_nstk m : nav_fn (next_sibling_or_token_by_kind m)
| nf_pst : nav_fn prev_sibling_or_token
| nf_ft : nav_fn first_token
| nf_lt : nav_fn last_token
| nf_nt : nav_fn next_token
| nf_pt : nav_fn prev_token.
(** proof device, no counterpart in the code *)
Inductive nav_reach (root : green) : cursor -> Prop :=
| nr_root : nav_reach root (new_root root)
| nr_parent c d : nav_reach root c -> c_parent c = Some d -> nav_reach root d
| nr_fn f c d : nav_reach root c -> nav_fn f -> f c = Ok (Some d) -> nav_reach root d
| nr_children c l d : nav_reach root c -> children c = Ok l -> d ∈ l -> nav_reach root d
| nr_children_wt c l d : nav_reach root c -> children_with_tokens c = Ok l -> d ∈ l -> nav_reach root d
| nr_tao c x r d : nav_reach root c -> c_is_node c = true -> token_at_offset c x = Ok r -> d ∈ tao_list r -> nav_reach root d
| nr_cov c r d : nav_reach root c -> c_is_node c = true -> range_ok r -> covering_element c r = Ok d -> nav_reach root d
| nr_range c r d : nav_reach root c -> range_ok r -> child_or_token_at_range c r = Ok (Some d) -> nav_reach root d.

(** proof device, no counterpart in the code *)
Definition in_tree (root : green) (c : cursor) : Prop := exists p, cursor_at root p = Some c.
Lemma answer_in root p r o : answer root p r o -> exists o', r = Ok o' /\ forall d, o' = Some d -> in_tree root d.
Proof.
  intros ->. eexists. split; [done|]. intros d H. destruct o as [i|]; [|done]. by exists (p ++ [i]).
Qed.
Lemma nav_fn_total root f c :
  wfg root -> nav_fn f -> in_tree root c -> exists o, f c = Ok o /\ forall d, o = Some d -> in_tree root d.
Proof.
  intros Hwf Hf [p Hc].
  assert (Hsib : forall f, (forall g, f (CRoot g) = Ok None) ->
            (forall p i c0, p ++ [i] = p ++ [i] -> cursor_at root (p ++ [i]) = Some c -> cursor_at root p = Some c0 ->
               exists o, f c = Ok o /\ forall d, o = Some d -> in_tree root d) ->
            exists o, f c = Ok o /\ forall d, o = Some d -> in_tree root d).
  { clear f Hf. intros f Hroot Hs. destruct p as [|i p _] using rev_ind.
    - injection Hc as <-. exists None. split; [apply Hroot|done].
    - destruct (cursor_at_prefix _ _ _ _ Hc) as [c0 H0]. by apply (Hs p i c0). }
  destruct Hf.
  - destruct (first_child_at root Hwf p c Hc) as (o&_&H). by apply (answer_in _ _ _ _ H).
  - destruct (first_child_by_kind_at root Hwf m p c Hc) as (o&_&H). by apply (answer_in _ _ _ _ H).
  - destruct (last_child_at root Hwf p c Hc) as (o&_&H). by apply (answer_in _ _ _ _ H).
  - rewrite (first_child_or_token_at root Hwf p c Hc). eexists. split; [done|]. intros d Hd. by exists (p ++ [O]).
  - destruct (first_child_or_token_by_kind_at root Hwf m p c Hc) as (o&_&H). by apply (answer_in _ _ _ _ H).
  - rewrite (last_child_or_token_at root Hwf p c Hc). eexists. split; [done|]. intros d Hd.
    destruct (length (gchildren (c_green c))) as [|n]; [done|]. by exists (p ++ [n]).
  - apply Hsib; [done|]. intros q i c0 _ Hq H0.
    destruct (next_sibling_at' root Hwf q i c c0 Hq H0) as (o&_&H). by apply (answer_in _ _ _ _ H).
  - apply Hsib; [done|]. intros q i c0 _ Hq H0.
    destruct (next_sibling_by_kind_at' root Hwf q i c c0 Hq H0 m) as (o&_&H). by apply (answer_in _ _ _ _ H).
  - apply Hsib; [done|]. intros q i c0 _ Hq H0.
    destruct (prev_sibling_at' root Hwf q i c c0 Hq H0) as (o&_&H). by apply (answer_in _ _ _ _ H).
  - apply Hsib; [done|]. intros q i c0 _ Hq H0.
    rewrite (next_sibling_or_token_at' root Hwf q i c c0 Hq H0). eexists. split; [done|]. intros d Hd. by eexists.
  - apply Hsib; [done|]. intros q i c0 _ Hq H0.
    destruct (next_sibling_or_token_by_kind_at' root Hwf q i c c0 Hq H0 m) as (o&_&H). by apply (answer_in _ _ _ _ H).
  - apply Hsib; [done|]. intros q i c0 _ Hq H0.
    rewrite (prev_sibling_or_token_at' root Hwf q i c c0 Hq H0). eexists. split; [done|]. intros d Hd.
    destruct i; [done|]. by eexists.
  - rewrite (first_token_at root Hwf p c Hc). eexists. split; [done|]. intros d Hd.
    destruct (leftmost _); [|done]. by eexists.
  - rewrite (last_token_at root Hwf p c Hc). eexists. split; [done|]. intros d Hd.
    destruct (rightmost _); [|done]. by eexists.
  - rewrite (next_token_at root Hwf p c Hc). eexists. split; [done|]. intros d Hd.
    destruct (up_next _ _) as [q|]; [|done]. simpl in Hd. destruct (tsub _ _) as [x|]; [|done]. simpl in Hd.
    destruct (leftmost x); [|done]. by eexists.
  - rewrite (prev_token_at root Hwf p c Hc). eexists. split; [done|]. intros d Hd.
    destruct (up_prev _ _) as [q|]; [|done]. simpl in Hd. destruct (tsub _ _) as [x|]; [|done]. simpl in Hd.
    destruct (rightmost x); [|done]. by eexists.
Qed.
Lemma Forall2_in_r {A B} (R : A -> B -> Prop) l k y : Forall2 R l k -> y ∈ k -> exists x, x ∈ l /\ R x y.
Proof. intros H Hy. apply elem_of_list_lookup in Hy as [i Hi]. destruct (Forall2_lookup_r _ _ _ _ _ H Hi) as (x&Hx&HR). exists x. split; [by eapply elem_of_list_lookup_2|done]. Qed.
Lemma in_tree_parent root c d : in_tree root c -> c_parent c = Some d -> in_tree root d.
Proof.
  intros [p Hc] Hd. destruct p as [|i p _] using rev_ind; [by injection Hc as <-|].
  destruct (cursor_at_prefix _ _ _ _ Hc) as [c0 H0]. destruct (sib_shape root p i c c0 Hc H0) as [Hs _].
  rewrite Hs in Hd. injection Hd as <-. by exists p.
Qed.
(** everything reachable from a root is an element of its tree *)
Lemma nav_reach_in root c : wfg root -> nav_reach root c -> in_tree root c.
Proof.
  intros Hwf. induction 1 as [|c d _ IH Hd|f c d _ IH Hf Hd|c l d _ IH Hl Hd|c l d _ IH Hl Hd|c x r d _ IH Hn Hl Hd|c r d _ IH Hn Hok Hd|c r d _ IH Hok Hd].
  - by exists [].
  - by eapply in_tree_parent.
  - destruct (nav_fn_total root f c Hwf Hf IH) as (o&Ho&H). apply H. congruence.
  - destruct IH as [p Hc]. destruct (children_at root p c Hwf Hc) as (l'&Hl'&H). assert (l' = l) as -> by congruence.
    destruct (Forall2_in_r _ _ _ _ H Hd) as (i&_&Hi). by eexists.
  - destruct IH as [p Hc]. destruct (children_with_tokens_at root p c Hwf Hc) as (l'&Hl'&H). assert (l' = l) as -> by congruence.
    destruct (Forall2_in_r _ _ _ _ H Hd) as (i&_&Hi). by eexists.
  - destruct IH as [p Hc].
    destruct (decide (c_offset c <= x /\ x <= c_offset c + blen (gtext (c_green c)))) as [Hx|Hx].
    + destruct (token_at_offset_at root Hwf p c x Hc Hn Hx) as (r'&Hr'&H). assert (r' = r) as -> by congruence.
      destruct (Forall2_in_r _ _ _ _ H Hd) as (i&_&Hi). by eexists.
    + rewrite (token_at_offset_outside root Hwf p c x Hc) in Hl; [done|tauto].
  - destruct IH as [p Hc].
    destruct (decide (c_offset c <= rstart r /\ rend r <= c_offset c + blen (gtext (c_green c)))) as [Hx|Hx].
    + destruct (covering_element_f_at root Hwf _ p c r Hc (le_n _) Hok Hx) as (q&d'&Hd'&H&_).
      assert (d' = d) as -> by (unfold covering_element in Hd; congruence). by eexists.
    + rewrite (covering_element_outside root Hwf p c r Hc) in Hd; [done|exact Hx].
  - destruct IH as [p Hc]. destruct (decide (c_offset c <= rstart r)) as [Hx|Hx].
    + destruct (child_or_token_at_range_at root Hwf p c r Hc Hok Hx) as (o&Ho&_). rewrite Ho in Hd.
      destruct o as [i|]; [|done]. injection Hd as Hd. by exists (p ++ [i]).
    + unfold child_or_token_at_range, range_sub in Hd. destruct (N.leb_spec (c_offset c) (rstart r)); [done|]. done.
Qed.
(** ... and every element is reachable *)
Lemma nav_reach_all root p c : wfg root -> cursor_at root p = Some c -> nav_reach root c.
Proof.
  intros Hwf. revert c. induction p as [|i p IH] using rev_ind; intros c Hc; [injection Hc as <-; constructor|].
  destruct (cursor_at_prefix _ _ _ _ Hc) as [c0 H0]. specialize (IH c0 H0).
  destruct (children_with_tokens_at root p c0 Hwf H0) as (l&Hl&H).
  assert (Hi : seq 0 (length (gchildren (c_green c0))) !! i = Some i).
  { apply lookup_seq. split; [done|]. by destruct (sib_siblings root p i c c0 Hc H0) as (_&_&?). }
  destruct (Forall2_lookup_l _ _ _ _ _ H Hi) as (d&Hd&Hcd). assert (d = c) as -> by congruence.
  eapply nr_children_wt; [exact IH|exact Hl|]. by eapply elem_of_list_lookup_2.
Qed.

(** ** Tiling *)
(** consecutive ranges covering [a, b] without gap or overlap *)
Fixpoint tiles (a : N) (rs : list range) (b : N) : Prop :=
  match rs with
  | [] => a = b
  | r :: rs' => rstart r = a /\ rstart r <= rend r /\ tiles (rend r) rs' b
  end.
Lemma tiles_at root p c :
  wfg root -> cursor_at root p = Some c ->
  forall n i l, (i + n = length (gchildren (c_green c)))%nat -> at_children root p (seq i n) l ->
  exists rs, Forall2 (fun d r => c_text_range d = Ok r) l rs /\
    tiles (c_offset c + cstart (c_green c) i) rs (c_offset c + cstart (c_green c) (i + n)).
Proof.
  intros Hwf Hc. induction n as [|n IH]; intros i l Hn Hl; simpl in Hl; inversion Hl as [|? d ? l' Hd Hl']; subst.
  - exists []. split; [constructor|]. simpl. by rewrite Nat.add_0_r.
  - destruct (child_cursor root Hwf _ _ _ _ Hc Hd) as (Ho&_&_&Hs).
    destruct (IH (S i) l' ltac:(lia) Hl') as (rs&Hrs&Ht).
    exists (TR (c_offset d) (c_offset d + blen (gtext (c_green d))) :: rs). split.
    + constructor; [|done]. by apply (c_text_range_at root Hwf _ _ Hd).
    + simpl. split; [lia|]. split; [lia|].
      replace (c_offset d + blen (gtext (c_green d))) with (c_offset c + cstart (c_green c) (S i)) by lia.
      by replace (i + S n)%nat with (S i + n)%nat by lia.
Qed.
Lemma children_tile root p c :
  wfg root -> cursor_at root p = Some c -> c_is_node c = true ->
  exists l rs a b, children_with_tokens c = Ok l /\ c_text_range c = Ok (TR a b) /\
    Forall2 (fun d r => c_text_range d = Ok r) l rs /\ tiles a rs b.
Proof.
  intros Hwf Hc Hn. destruct (children_with_tokens_at root p c Hwf Hc) as (l&Hl&Hat).
  destruct (tiles_at root p c Hwf Hc _ 0 l eq_refl Hat) as (rs&Hrs&Ht).
  exists l, rs, (c_offset c), (c_offset c + blen (gtext (c_green c))).
  split_and!; [done|by apply (c_text_range_at root Hwf p)|done|].
  rewrite cstart_0, N.add_0_r in Ht. simpl in Ht. by rewrite cstart_end in Ht.
Qed.

(** ** Inverse of sibling navigation *)
Lemma in_tree_sib root c : in_tree root c -> (exists g, c = CRoot g) \/
  exists p i c0, cursor_at root (p ++ [i]) = Some c /\ cursor_at root p = Some c0.
Proof.
  intros [p Hc]. destruct p as [|i p _] using rev_ind; [left; injection Hc as <-; eauto|].
  right. destruct (cursor_at_prefix _ _ _ _ Hc) as [c0 H0]. eauto.
Qed.
Section inv.
Context (root : green) (Hwf : wfg root).
Lemma next_sibling_tok_inv c d :
  in_tree root c -> next_sibling_or_token c = Ok (Some d) -> prev_sibling_or_token d = Ok (Some c).
Proof using Hwf.
  intros [[g ->]|(p&i&c0&Hc&H0)]%in_tree_sib Hd; [done|].
  rewrite (next_sibling_or_token_at' root Hwf p i c c0 Hc H0) in Hd. injection Hd as Hd.
  by rewrite (prev_sibling_or_token_at' root Hwf p (S i) d c0 Hd H0), Hc.
Qed.
Lemma prev_sibling_tok_inv c d :
  in_tree root c -> prev_sibling_or_token c = Ok (Some d) -> next_sibling_or_token d = Ok (Some c).
Proof using Hwf.
  intros [[g ->]|(p&i&c0&Hc&H0)]%in_tree_sib Hd; [done|].
  rewrite (prev_sibling_or_token_at' root Hwf p i c c0 Hc H0) in Hd. destruct i as [|j]; [done|]. injection Hd as Hd.
  by rewrite (next_sibling_or_token_at' root Hwf p j d c0 Hd H0), Hc.
Qed.
Lemma sib_is_node p i c c0 :
  cursor_at root (p ++ [i]) = Some c -> cursor_at root p = Some c0 ->
  tchildren (erase (c_green c0)) !! i = Some (erase (c_green c)) /\ is_node (erase (c_green c)) = c_is_node c.
Proof using Hwf.
  intros Hc H0. destruct (child_cursor root Hwf _ _ _ _ H0 Hc) as (_&Ht&_). split; [done|].
  unfold c_is_node. by destruct (c_green c).
Qed.
Lemma next_sibling_inv c d :
  in_tree root c -> c_is_node c = true -> next_sibling c = Ok (Some d) -> prev_sibling d = Ok (Some c).
Proof using Hwf.
  intros [[g ->]|(p&i&c0&Hc&H0)]%in_tree_sib Hn Hd; [done|].
  destruct (next_sibling_at' root Hwf p i c c0 Hc H0) as (o&Ho&Ha). rewrite Ha in Hd.
  destruct o as [j|]; [|done]. injection Hd as Hd. destruct Ho as (H1&H2&H3).
  destruct (prev_sibling_at' root Hwf p j d c0 Hd H0) as (o'&Ho'&Ha'). rewrite Ha'.
  destruct (sib_is_node _ _ _ _ Hc H0) as [Hi Hin]. rewrite Hn in Hin.
  assert (o' = Some i) as ->; [|simpl; by rewrite Hc].
  destruct o' as [k|].
  - destruct Ho' as (K1&(x&Kx&Kn)&K3). destruct (Nat.lt_trichotomy k i) as [Hki|[->|Hki]]; [|done|].
    + rewrite (K3 i _ ltac:(lia) Hi) in Hin. done.
    + rewrite (H3 k x ltac:(lia) Kx) in Kn. done.
  - rewrite (Ho' i _ ltac:(lia) Hi) in Hin. done.
Qed.
Lemma prev_sibling_inv c d :
  in_tree root c -> c_is_node c = true -> prev_sibling c = Ok (Some d) -> next_sibling d = Ok (Some c).
Proof using Hwf.
  intros [[g ->]|(p&i&c0&Hc&H0)]%in_tree_sib Hn Hd; [done|].
  destruct (prev_sibling_at' root Hwf p i c c0 Hc H0) as (o&Ho&Ha). rewrite Ha in Hd.
  destruct o as [j|]; [|done]. injection Hd as Hd. destruct Ho as (H1&H2&H3).
  destruct (next_sibling_at' root Hwf p j d c0 Hd H0) as (o'&Ho'&Ha'). rewrite Ha'.
  destruct (sib_is_node _ _ _ _ Hc H0) as [Hi Hin]. rewrite Hn in Hin.
  assert (o' = Some i) as ->; [|simpl; by rewrite Hc].
  destruct o' as [k|].
  - destruct Ho' as (K1&(x&Kx&Kn)&K3). destruct (Nat.lt_trichotomy k i) as [Hki|[->|Hki]]; [|done|].
    + rewrite (H3 k x ltac:(lia) Kx) in Kn. done.
    + rewrite (K3 i _ ltac:(lia) Hi) in Hin. done.
  - rewrite (Ho' i _ ltac:(lia) Hi) in Hin. done.
Qed.
End inv.
