(** * Facts about cursors *)
From Verif Require Export Cursor.

(** ** Positions *)
Lemma cursor_at_nil root : cursor_at root [] = Some (CRoot root).
Proof. done. Qed.
Lemma cursor_at_snoc root p i : cursor_at root (p ++ [i]) = cursor_at root p ≫= fun c => child_at c i.
Proof. unfold cursor_at. by rewrite fold_left_app. Qed.
Lemma cursor_at_app_None root p q : cursor_at root p = None -> cursor_at root (p ++ q) = None.
Proof.
  intros H. induction q as [|i q IH] using rev_ind; [by rewrite app_nil_r|].
  by rewrite app_assoc, cursor_at_snoc, IH.
Qed.
Lemma cursor_at_gsub root p c : cursor_at root p = Some c -> gsub root p = Some (c_green c).
Proof.
  revert c. induction p as [|i p IH] using rev_ind; intros c; [by intros [= <-]|].
  rewrite cursor_at_snoc. destruct (cursor_at root p) as [c0|]; [|done]. simpl.
  rewrite gsub_snoc, (IH c0 eq_refl). unfold child_at.
  destruct (gchildren (c_green c0) !! i); [|done]. by intros [= <-].
Qed.
Lemma cursor_at_None root p : cursor_at root p = None <-> gsub root p = None.
Proof.
  induction p as [|i p IH] using rev_ind; [done|].
  rewrite cursor_at_snoc, gsub_snoc. destruct (cursor_at root p) as [c0|] eqn:E; simpl.
  - rewrite (cursor_at_gsub _ _ _ E). unfold child_at. by destruct (gchildren (c_green c0) !! i).
  - by rewrite (proj1 IH eq_refl).
Qed.
Lemma cursor_at_sub root p : erase <$> (c_green <$> cursor_at root p) = tsub (erase root) p.
Proof.
  rewrite erase_gsub. destruct (cursor_at root p) as [c|] eqn:E; simpl.
  - by rewrite (cursor_at_gsub _ _ _ E).
  - by rewrite (proj1 (cursor_at_None _ _) E).
Qed.
Lemma cursor_at_tsub root p c : cursor_at root p = Some c -> tsub (erase root) p = Some (erase (c_green c)).
Proof. intros H. rewrite <- cursor_at_sub, H. done. Qed.
Lemma cursor_at_path root p c : cursor_at root p = Some c -> c_path c = p /\ c_root c = root.
Proof.
  revert c. induction p as [|i p IH] using rev_ind; intros c; [by intros [= <-]|].
  rewrite cursor_at_snoc. destruct (cursor_at root p) as [c0|]; [|done]. simpl. unfold child_at.
  destruct (gchildren (c_green c0) !! i); [|done]. intros [= <-]. simpl.
  destruct (IH c0 eq_refl) as [-> ->]. done.
Qed.
Lemma cursor_at_inj root p q c : cursor_at root p = Some c -> cursor_at root q = Some c -> p = q.
Proof. intros H1 H2. apply cursor_at_path in H1 as [H1 _], H2 as [H2 _]. congruence. Qed.
(** the last step *)
Lemma cursor_at_snoc_inv root p i c :
  cursor_at root (p ++ [i]) = Some c ->
  exists c0 ch, cursor_at root p = Some c0 /\ gchildren (c_green c0) !! i = Some ch /\
    c = CChild c0 i (c_offset c0 + ch.1) ch.2.
Proof.
  rewrite cursor_at_snoc. destruct (cursor_at root p) as [c0|]; [|done]. simpl. unfold child_at.
  destruct (gchildren (c_green c0) !! i) as [ch|] eqn:E; [|done]. intros [= <-]. eauto.
Qed.
Lemma cursor_at_child root p c i ch :
  cursor_at root p = Some c -> gchildren (c_green c) !! i = Some ch ->
  cursor_at root (p ++ [i]) = Some (CChild c i (c_offset c + ch.1) ch.2).
Proof. intros H1 H2. rewrite cursor_at_snoc, H1. simpl. unfold child_at. by rewrite H2. Qed.
Lemma cursor_at_child_None root p c i :
  cursor_at root p = Some c -> gchildren (c_green c) !! i = None -> cursor_at root (p ++ [i]) = None.
Proof. intros H1 H2. rewrite cursor_at_snoc, H1. simpl. unfold child_at. by rewrite H2. Qed.
Lemma cursor_at_prefix root p q c : cursor_at root (p ++ q) = Some c -> exists c0, cursor_at root p = Some c0.
Proof. intros H. destruct (cursor_at root p) eqn:E; [eauto|]. by rewrite cursor_at_app_None in H. Qed.

Section root.
Context (root : green) (Hwf : wfg root).

Lemma cursor_at_wfg p c : cursor_at root p = Some c -> wfg (c_green c).
Proof using Hwf. intros H%cursor_at_gsub. by eapply wfg_gsub. Qed.
Lemma cursor_at_off p c : cursor_at root p = Some c -> c_offset c = blen (tbefore (erase root) p).
Proof using Hwf.
  revert c. induction p as [|i p IH] using rev_ind; intros c; [by intros [= <-]|].
  intros (c0&ch&H0&Hch&->)%cursor_at_snoc_inv. simpl. rewrite (IH _ H0).
  rewrite (tbefore_snoc _ _ _ _ (cursor_at_tsub _ _ _ H0)), blen_app. f_equal.
  destruct (wfg_child _ _ _ (cursor_at_wfg _ _ H0) Hch) as [_ Ho]. rewrite Ho.
  by rewrite erase_children, take_map, gctext_ctext.
Qed.
Lemma cursor_at_fits p c :
  cursor_at root p = Some c -> (c_offset c + blen (gtext (c_green c)) <= u32_max)%N.
Proof using Hwf.
  intros H. rewrite (cursor_at_off _ _ H). pose proof (tbefore_bound _ _ _ (cursor_at_tsub _ _ _ H)) as Hb.
  pose proof (wfg_bound _ Hwf) as Hr. unfold gtext in *. lia.
Qed.
Lemma c_text_range_at p c :
  cursor_at root p = Some c ->
  c_text_range c = Ok (TR (c_offset c) (c_offset c + blen (gtext (c_green c)))).
Proof using Hwf.
  intros H. unfold c_text_range. rewrite (wfg_text_len _ (cursor_at_wfg _ _ H)). simpl.
  unfold add32. pose proof (cursor_at_fits _ _ H) as Hf. apply N.leb_le in Hf. by rewrite Hf.
Qed.
Lemma mk_child_at p c i ch :
  cursor_at root p = Some c -> gchildren (c_green c) !! i = Some ch ->
  mk_child c (i, ch) = Ok (CChild c i (c_offset c + ch.1) ch.2).
Proof using Hwf.
  intros H Hch. unfold mk_child. simpl. unfold add32.
  pose proof (cursor_at_fits _ _ (cursor_at_child _ _ _ _ _ H Hch)) as Hf. simpl in Hf.
  assert (c_offset c + ch.1 <= u32_max)%N as Hle%N.leb_le by lia. by rewrite Hle.
Qed.
(** proof device, no counterpart in the code *)
Definition valid_sel (l : list (N * green)) (o : option (nat * (N * green))) : Prop :=
  forall i ch, o = Some (i, ch) -> l !! i = Some ch.
Lemma mk_child_opt_at p c o :
  cursor_at root p = Some c -> valid_sel (gchildren (c_green c)) o ->
  mk_child_opt c o = Ok ((fst <$> o) ≫= fun i => cursor_at root (p ++ [i])).
Proof using Hwf.
  intros H Hv. destruct o as [[i ch]|]; simpl; [|done]. specialize (Hv _ _ eq_refl).
  by rewrite (mk_child_at _ _ _ _ H Hv), (cursor_at_child _ _ _ _ _ H Hv).
Qed.
Lemma mk_sibling_opt_at p i c o c0 :
  cursor_at root p = Some c0 -> c = CChild c0 i (c_offset c) (c_green c) ->
  valid_sel (gchildren (c_green c0)) o ->
  mk_sibling_opt c o = Ok ((fst <$> o) ≫= fun j => cursor_at root (p ++ [j])).
Proof using Hwf.
  intros H -> Hv. destruct o as [[j ch]|]; simpl; [|done]. specialize (Hv _ _ eq_refl).
  by rewrite (mk_child_at _ _ _ _ H Hv), (cursor_at_child _ _ _ _ _ H Hv).
Qed.
End root.

(** ** Selections *)
(** proof device, no counterpart in the code *)
Definition selects (f : nat * (N * green) -> option (nat * (N * green))) (P : green -> bool) : Prop :=
  forall ic, f ic = if P ic.2.2 then Some ic else None.
Lemma sel_node_selects : selects sel_node gis_node.
Proof. done. Qed.
Lemma sel_node_kind_selects m : selects (sel_node_kind m) (fun g => m (gkind g) && gis_node g).
Proof. intros ic. unfold sel_node_kind, sel_node. by destruct (m _), (gis_node _). Qed.
Lemma sel_kind_selects m : selects (sel_kind m) (fun g => m (gkind g)).
Proof. done. Qed.

(** a predicate on green elements that only looks at what the specification sees *)
Definition agrees (P : green -> bool) (Q : tree -> bool) : Prop := forall g, P g = Q (erase g).
Lemma agrees_node : agrees gis_node is_node.
Proof. intros g. by rewrite erase_is_node. Qed.
Lemma agrees_kind m : agrees (fun g => m (gkind g)) (fun t => m (tkind t)).
Proof. intros g. by rewrite erase_kind. Qed.
Lemma agrees_node_kind m : agrees (fun g => m (gkind g) && gis_node g) (fun t => m (tkind t) && is_node t).
Proof. intros g. by rewrite erase_kind, erase_is_node. Qed.
Lemma agrees_any : agrees any any.
Proof. done. Qed.

Lemma first_from_erase P Q g lo o :
  agrees P Q -> is_first_from P (kids g) lo o <-> is_first_from Q (tchildren (erase g)) lo o.
Proof.
  intros HPQ. unfold is_first_from. rewrite erase_children. generalize (kids g) as l. intros l.
  destruct o as [j|]; setoid_rewrite lookup_map; setoid_rewrite fmap_Some.
  - split; intros (H1&(x&Hx&Hp)&H2); split_and!; try done.
    + exists (erase x). split; [eauto|by rewrite <- HPQ].
    + intros k y Hk (z&Hz&->). rewrite <- HPQ. eauto.
    + destruct Hx as (z&Hz&->). exists z. by rewrite HPQ.
    + intros k y Hk Hy. rewrite HPQ. eauto.
  - split.
    + intros H k y Hk (z&Hz&->). rewrite <- HPQ. eauto.
    + intros H k y Hk Hy. rewrite HPQ. eauto.
Qed.
Lemma last_below_erase P Q g hi o :
  agrees P Q -> is_last_below P (kids g) hi o <-> is_last_below Q (tchildren (erase g)) hi o.
Proof.
  intros HPQ. unfold is_last_below. rewrite erase_children. generalize (kids g) as l. intros l.
  destruct o as [j|]; setoid_rewrite lookup_map; setoid_rewrite fmap_Some.
  - split; intros (H1&(x&Hx&Hp)&H2); split_and!; try done.
    + exists (erase x). split; [eauto|by rewrite <- HPQ].
    + intros k y Hk (z&Hz&->). rewrite <- HPQ. eauto.
    + destruct Hx as (z&Hz&->). exists z. by rewrite HPQ.
    + intros k y Hk Hy. rewrite HPQ. eauto.
  - split.
    + intros H k y Hk (z&Hz&->). rewrite <- HPQ. eauto.
    + intros H k y Hk Hy. rewrite HPQ. eauto.
Qed.

Lemma sel_first f P g n :
  selects f P ->
  let o := find_map f (drop n (enumerate (gchildren g))) in
  valid_sel (gchildren g) o /\ is_first_from P (kids g) n (fst <$> o).
Proof.
  intros Hf o. subst o. destruct (find_map _ _) as [[j ch]|] eqn:E; simpl.
  - apply find_map_drop_enum_Some in E as (j'&x&Hle&Hx&Hfx&Hk). rewrite Hf in Hfx. simpl in Hfx.
    destruct (P x.2) eqn:HP; [|done]. injection Hfx as -> ->. split; [by intros ?? [= <- <-]|].
    split; [done|]. split.
    + exists ch.2. unfold kids. rewrite lookup_map, Hx. done.
    + intros k y Hlt Hy. unfold kids in Hy. rewrite lookup_map in Hy. apply fmap_Some in Hy as (z&Hz&->).
      specialize (Hk k z Hlt Hz). rewrite Hf in Hk. simpl in Hk. by destruct (P z.2).
  - pose proof (proj1 (find_map_drop_enum_None _ _ _) E) as Hk. split; [done|].
    intros k y Hle Hy. unfold kids in Hy. rewrite lookup_map in Hy. apply fmap_Some in Hy as (z&Hz&->).
    specialize (Hk k z Hle Hz). rewrite Hf in Hk. simpl in Hk. by destruct (P z.2).
Qed.
Lemma sel_last f P g n :
  selects f P -> n <= length (gchildren g) ->
  let o := find_map f (drop (length (gchildren g) - n) (rev (enumerate (gchildren g)))) in
  valid_sel (gchildren g) o /\ is_last_below P (kids g) n (fst <$> o).
Proof.
  intros Hf Hn o. subst o. destruct (find_map _ _) as [[j ch]|] eqn:E; simpl.
  - apply find_map_rev_enum_Some in E as (j'&x&Hle&Hx&Hfx&Hk); [|done]. rewrite Hf in Hfx. simpl in Hfx.
    destruct (P x.2) eqn:HP; [|done]. injection Hfx as -> ->. split; [by intros ?? [= <- <-]|].
    split; [done|]. split.
    + exists ch.2. unfold kids. rewrite lookup_map, Hx. done.
    + intros k y Hlt Hy. unfold kids in Hy. rewrite lookup_map in Hy. apply fmap_Some in Hy as (z&Hz&->).
      specialize (Hk k z Hlt Hz). rewrite Hf in Hk. simpl in Hk. by destruct (P z.2).
  - pose proof (proj1 (find_map_rev_enum_None _ _ _ Hn) E) as Hk. split; [done|].
    intros k y Hle Hy. unfold kids in Hy. rewrite lookup_map in Hy. apply fmap_Some in Hy as (z&Hz&->).
    specialize (Hk k z Hle Hz). rewrite Hf in Hk. simpl in Hk. by destruct (P z.2).
Qed.

(** ** The navigation functions *)
(** [o] is a child index of the element at [p]: the answer is the child there *)
Definition answer (root : green) (p : pos) (r : res (option cursor)) (o : option nat) : Prop :=
  r = Ok (o ≫= fun i => cursor_at root (p ++ [i])).

Section nav.
Context (root : green) (Hwf : wfg root).

Lemma first_gen f P Q p c n :
  selects f P -> agrees P Q -> cursor_at root p = Some c ->
  exists o, is_first_from Q (tchildren (erase (c_green c))) n o /\
    answer root p (mk_child_opt c (find_map f (drop n (enumerate (gchildren (c_green c)))))) o.
Proof using Hwf.
  intros Hf HQ H. destruct (sel_first f P (c_green c) n Hf) as [Hv Hfst].
  eexists. split; [by apply (first_from_erase P Q)|]. by apply mk_child_opt_at.
Qed.
Lemma first_child_at p c :
  cursor_at root p = Some c ->
  exists o, is_first_from is_node (tchildren (erase (c_green c))) 0 o /\ answer root p (first_child c) o.
Proof using Hwf. apply (first_gen _ _ _ p c 0 sel_node_selects agrees_node). Qed.
Lemma first_child_by_kind_at m p c :
  cursor_at root p = Some c ->
  exists o, is_first_from (fun t => m (tkind t) && is_node t) (tchildren (erase (c_green c))) 0 o /\
    answer root p (first_child_by_kind m c) o.
Proof using Hwf. apply (first_gen _ _ _ p c 0 (sel_node_kind_selects m) (agrees_node_kind m)). Qed.
Lemma first_child_or_token_by_kind_at m p c :
  cursor_at root p = Some c ->
  exists o, is_first_from (fun t => m (tkind t)) (tchildren (erase (c_green c))) 0 o /\
    answer root p (first_child_or_token_by_kind m c) o.
Proof using Hwf. apply (first_gen _ _ _ p c 0 (sel_kind_selects m) (agrees_kind m)). Qed.
Lemma last_child_at p c :
  cursor_at root p = Some c ->
  exists o, is_last_below is_node (tchildren (erase (c_green c))) (length (tchildren (erase (c_green c)))) o /\
    answer root p (last_child c) o.
Proof using Hwf.
  intros H. destruct (sel_last sel_node _ (c_green c) (length (gchildren (c_green c))) sel_node_selects) as [Hv Hl]; [lia|].
  rewrite Nat.sub_diag in Hv, Hl. simpl in Hv, Hl.
  eexists. rewrite length_erase_children.
  split; [by apply (last_below_erase _ _ _ _ _ agrees_node)|]. by apply mk_child_opt_at.
Qed.
Lemma first_child_or_token_at p c :
  cursor_at root p = Some c -> first_child_or_token c = Ok (cursor_at root (p ++ [0])).
Proof using Hwf.
  intros H. unfold first_child_or_token. destruct (gchildren (c_green c)) as [|ch l] eqn:E; simpl.
  - rewrite (cursor_at_child_None _ _ _ _ H); [done|]. by rewrite E.
  - assert (gchildren (c_green c) !! 0 = Some ch) as Hch by (by rewrite E).
    by rewrite (mk_child_at _ Hwf _ _ _ _ H Hch), (cursor_at_child _ _ _ _ _ H Hch).
Qed.
Lemma last_child_or_token_at p c :
  cursor_at root p = Some c ->
  last_child_or_token c =
  Ok (match length (gchildren (c_green c)) with 0 => None | S n => cursor_at root (p ++ [n]) end).
Proof using Hwf.
  intros H. unfold last_child_or_token. rewrite last_lookup, length_enumerate, lookup_enumerate.
  destruct (length (gchildren (c_green c))) as [|n] eqn:E; simpl.
  - apply nil_length_inv in E. rewrite E. done.
  - destruct (gchildren (c_green c) !! n) as [ch|] eqn:Hch; simpl.
    + by rewrite (mk_child_at _ Hwf _ _ _ _ H Hch), (cursor_at_child _ _ _ _ _ H Hch).
    + by rewrite (cursor_at_child_None _ _ _ _ H Hch).
Qed.

(** siblings of the element at [p ++ [i]], whose parent is the element [c0] at [p] *)
Section sib.
Context (p : pos) (i : nat) (c c0 : cursor)
  (Hc : cursor_at root (p ++ [i]) = Some c) (H0 : cursor_at root p = Some c0).
Lemma sib_shape : c = CChild c0 i (c_offset c) (c_green c) /\ exists ch, gchildren (c_green c0) !! i = Some ch.
Proof using Hc H0.
  pose proof Hc as (c1&ch&H1&Hch&->)%cursor_at_snoc_inv. assert (c1 = c0) as -> by congruence.
  simpl. eauto.
Qed.
Lemma sib_siblings : green_siblings c = gchildren (c_green c0) /\ c_index c = i /\ i < length (gchildren (c_green c0)).
Proof using Hc H0.
  destruct sib_shape as [-> [ch Hch]]. simpl. split_and!; [done|done|]. by eapply lookup_lt_Some.
Qed.
Lemma next_gen f P Q :
  selects f P -> agrees P Q ->
  exists o, is_first_from Q (tchildren (erase (c_green c0))) (S i) o /\
    answer root p (mk_sibling_opt c (find_map f (drop (c_index c + 1) (enumerate (green_siblings c))))) o.
Proof using Hwf Hc H0.
  intros Hf HQ. destruct sib_siblings as (->&->&_). rewrite Nat.add_1_r.
  destruct (sel_first f P (c_green c0) (S i) Hf) as [Hv Hfst].
  eexists. split; [by apply (first_from_erase P Q)|].
  eapply mk_sibling_opt_at; [done|done|apply sib_shape|done].
Qed.
Lemma next_sibling_at' :
  exists o, is_first_from is_node (tchildren (erase (c_green c0))) (S i) o /\ answer root p (next_sibling c) o.
Proof using Hwf Hc H0. apply (next_gen _ _ _ sel_node_selects agrees_node). Qed.
Lemma next_sibling_by_kind_at' m :
  exists o, is_first_from (fun t => m (tkind t) && is_node t) (tchildren (erase (c_green c0))) (S i) o /\
    answer root p (next_sibling_by_kind m c) o.
Proof using Hwf Hc H0. apply (next_gen _ _ _ (sel_node_kind_selects m) (agrees_node_kind m)). Qed.
Lemma next_sibling_or_token_by_kind_at' m :
  exists o, is_first_from (fun t => m (tkind t)) (tchildren (erase (c_green c0))) (S i) o /\
    answer root p (next_sibling_or_token_by_kind m c) o.
Proof using Hwf Hc H0. apply (next_gen _ _ _ (sel_kind_selects m) (agrees_kind m)). Qed.
Lemma prev_sibling_at' :
  exists o, is_last_below is_node (tchildren (erase (c_green c0))) i o /\ answer root p (prev_sibling c) o.
Proof using Hwf Hc H0.
  unfold prev_sibling. rewrite rev_length, length_enumerate. destruct sib_siblings as (->&->&Hlt).
  destruct (Nat.ltb_spec (length (gchildren (c_green c0))) i); [lia|].
  destruct (sel_last sel_node _ (c_green c0) i sel_node_selects) as [Hv Hl]; [lia|].
  eexists. split; [by apply (last_below_erase _ _ _ _ _ agrees_node)|].
  eapply mk_sibling_opt_at; [done|done|apply sib_shape|done].
Qed.
Lemma nth_sibling_at j :
  mk_sibling_opt c (enumerate (green_siblings c) !! j) = Ok (cursor_at root (p ++ [j])).
Proof using Hwf Hc H0.
  destruct sib_siblings as (->&_&_). rewrite lookup_enumerate.
  destruct (gchildren (c_green c0) !! j) as [ch|] eqn:Hch; simpl.
  - destruct sib_shape as [-> _]. simpl.
    by rewrite (mk_child_at _ Hwf _ _ _ _ H0 Hch), (cursor_at_child _ _ _ _ _ H0 Hch).
  - by rewrite (cursor_at_child_None _ _ _ _ H0 Hch).
Qed.
Lemma next_sibling_or_token_at' : next_sibling_or_token c = Ok (cursor_at root (p ++ [S i])).
Proof using Hwf Hc H0.
  unfold next_sibling_or_token. destruct sib_siblings as (_&->&_). rewrite Nat.add_1_r. apply nth_sibling_at.
Qed.
Lemma prev_sibling_or_token_at' :
  prev_sibling_or_token c = Ok (match i with 0 => None | S j => cursor_at root (p ++ [j]) end).
Proof using Hwf Hc H0.
  unfold prev_sibling_or_token. destruct sib_siblings as (_&->&_). pose proof nth_sibling_at as H. by case i.
Qed.
End sib.
End nav.

(** at the root there are no siblings *)
Lemma root_no_siblings g :
  next_sibling (CRoot g) = Ok None /\ prev_sibling (CRoot g) = Ok None /\
  next_sibling_or_token (CRoot g) = Ok None /\ prev_sibling_or_token (CRoot g) = Ok None /\
  (forall m, next_sibling_by_kind m (CRoot g) = Ok None) /\
  (forall m, next_sibling_or_token_by_kind m (CRoot g) = Ok None).
Proof. done. Qed.
