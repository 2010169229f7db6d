(** * Mutation on the heap: [respine], [detach], [attach_child] *)
From Verif Require Export Forest HeapNav.

(** like [wp], for programs that may stop with an error *)
Definition wpx {A} (m : hm A) (Q : A -> heap -> Prop) (E : err -> Prop) (h : heap) : Prop :=
  match m h with (Ok a, h') => Q a h' | (Err e, _) => E e end.
Lemma wpx_wp {A} (m : hm A) (Q : A -> heap -> Prop) E h : wp m Q h -> wpx m Q E h.
Proof. unfold wp, wpx. destruct (m h) as [[] ?]; done. Qed.
Lemma wp_wpx {A} (m : hm A) (Q : A -> heap -> Prop) E h : wpx m Q E h -> (forall e, ~ E e) -> wp m Q h.
Proof. unfold wp, wpx. destruct (m h) as [[] ?]; [done|]. intros ? H. by eapply H. Qed.
Lemma wpx_bind {A B} (m : hm A) (f : A -> hm B) (Q : B -> heap -> Prop) E h :
  wpx m (fun a h' => wpx (f a) Q E h') E h -> wpx (m ≫= f) Q E h.
Proof. unfold wpx, mbind, hm_bind. destruct (m h) as [[] ?]; done. Qed.
Lemma wpx_wp_bind {A B} (m : hm A) (f : A -> hm B) (Q : B -> heap -> Prop) E h :
  wp m (fun a h' => wpx (f a) Q E h') h -> wpx (m ≫= f) Q E h.
Proof. intros H. by apply wpx_bind, wpx_wp. Qed.
Lemma wpx_mono {A} (m : hm A) (Q Q' : A -> heap -> Prop) (E E' : err -> Prop) h :
  wpx m Q E h -> (forall a h', Q a h' -> Q' a h') -> (forall e, E e -> E' e) -> wpx m Q' E' h.
Proof. unfold wpx. destruct (m h) as [[] ?]; auto. Qed.

(** ** Building a green element *)
(** proof device, no counterpart in the code *)
Definition drop_used (used : option green) (o o' : list green) : Prop :=
  match used with Some u => o ≡ₚ u :: o' | None => o' = o end.
Lemma wpx_green_build env f used (Pg : green -> Prop) (Eb : err -> Prop) (Q : green -> heap -> Prop) (E : err -> Prop) h :
  henv_ok env -> Forall wfg (po (P h)) -> cohl (po (P h)) -> match used with Some u => u ∈ po (P h) | None => True end ->
  (forall a, match f a with
             | Ok g => gaddr g = a /\ wfg g /\ (forall x, x ∈ kids g -> live (po (P h)) x) /\ Pg g
             | Err e => Eb e end) ->
  (forall g h' o', Pg g -> wfg g -> drop_used used (po (P h)) o' ->
     P h' = PM (pc (P h)) (pr (P h)) (pf (P h)) (pn (P h)) (pv (P h)) (g :: o') (S (pk (P h))) ->
     Forall wfg (g :: o') -> cohl (g :: o') -> Q g h') ->
  (forall e, Eb e -> E e) ->
  wpx (h_green_build env f used) Q E h.
Proof.
  intros [_ Hga] Hwf Hco Hu Hf HQ HE.
  assert (exists o', (match used with Some u => remove_addr (gaddr u) (ow h) | None => Some (ow h) end) = Some o' /\ drop_used used (po (P h)) o') as (o'&Ho'&Hd).
  { change (ow h) with (po (P h)). destruct used as [u|]; simpl; [|eauto].
    destruct (remove_owned _ _ Hco Hu) as (o'&Ho'&Hp). eauto. }
  unfold wpx, h_green_build. rewrite Ho'. specialize (Hf (galloc env (ck h) (live_addrs (ow h)))).
  destruct (f (galloc env (ck h) (live_addrs (ow h)))) as [g|e]; [|by apply HE].
  destruct Hf as (Ha&Hw&Hk&HP).
  assert (Hsub : forall x, x ∈ o' -> x ∈ po (P h)).
  { intros x Hx. destruct used as [u|]; simpl in Hd; [rewrite Hd; by right|by subst]. }
  assert (cohl (g :: po (P h))).
  { apply cohl_add; [done| |done]. intros x Hx%live_addr Heq. rewrite Heq, Ha in Hx. by apply (Hga (ck h)) in Hx. }
  eapply (HQ g _ o'); try done.
  - constructor; [done|]. rewrite Forall_forall in Hwf |- *. intros x Hx. by apply Hwf, Hsub.
  - eapply cohl_subset; [|done]. intros x [->|Hx]%elem_of_cons; apply live_elem; [left|right; by apply Hsub].
Qed.

(** ** [respine] *)
(** only green elements differ *)
Definition skel1 (a b : core) : Prop := o_par a = o_par b /\ o_idx a = o_idx b /\ o_mut a = o_mut b /\ o_off a = o_off b.
(** proof device, no counterpart in the code *)
Definition skel (c c' : gmap id core) : Prop :=
  forall y, match c !! y, c' !! y with Some a, Some b => skel1 a b | None, None => True | _, _ => False end.
Lemma skel_refl c : skel c c.
Proof. intros y. by destruct (c !! y). Qed.
Lemma skel_trans c1 c2 c3 : skel c1 c2 -> skel c2 c3 -> skel c1 c3.
Proof.
  intros H1 H2 y. specialize (H1 y). specialize (H2 y). unfold skel1 in *.
  destruct (c1 !! y), (c2 !! y), (c3 !! y); try done. destruct H1 as (?&?&?&?), H2 as (?&?&?&?). split_and!; congruence.
Qed.
Lemma skel_sym c1 c2 : skel c1 c2 -> skel c2 c1.
Proof.
  intros H1 y. specialize (H1 y). unfold skel1 in *. destruct (c1 !! y), (c2 !! y); try done. naive_solver.
Qed.
Lemma skel_some c c' y cy : skel c c' -> c !! y = Some cy -> exists cy', c' !! y = Some cy' /\ skel1 cy cy'.
Proof. intros H Hy. specialize (H y). rewrite Hy in H. destruct (c' !! y) as [cy'|]; [eauto|done]. Qed.
Lemma skel_is_some c c' y : skel c c' -> is_Some (c !! y) <-> is_Some (c' !! y).
Proof. intros H. specialize (H y). destruct (c !! y), (c' !! y); try done; split; eauto; by intros [? ?]. Qed.
Lemma skel_loc c c' x r p : skel c c' -> loc c x r p -> loc c' x r p.
Proof.
  intros Hs. induction 1 as [x cx Hx Hp|x cx q r p Hx Hp Hq IH]; destruct (skel_some _ _ _ _ Hs Hx) as (cx'&Hx'&Ep&Ei&_).
  - eapply loc_root; [done|congruence].
  - rewrite Ei. eapply loc_child; [done|by rewrite <- Ep|done].
Qed.
Lemma skel_ix c c' x : skel c c' -> ix c' x = ix c x.
Proof. intros H. specialize (H x). unfold ix. destruct (c !! x), (c' !! x); try done. by destruct H as (_&?&_). Qed.
Lemma skel_grn c x cx g : c !! x = Some cx -> skel c (<[x:=c_grn g cx]> c).
Proof.
  intros Hx y. destruct (decide (y = x)) as [->|Hne]; [rewrite lookup_insert, Hx; done|rewrite lookup_insert_ne by done; by destruct (c !! y)].
Qed.
Lemma skel_links c c' K f n q : skel c c' -> links c K f n q -> links c' K f n q.
Proof.
  intros Hs [H1 H2 H3]. apply skel_sym in Hs. constructor; intros p cp Hp; destruct (skel_some _ _ _ _ Hs Hp) as (cp'&Hp'&E1&_&E3&_);
    intros; [eapply H1|eapply H2|eapply H3]; eauto; congruence.
Qed.
Lemma skel_counts c c' r K H d : skel c c' -> counts c r K H d -> counts c' r K H d.
Proof.
  intros Hs [H1 H2 H3 H4]. constructor; intros x; rewrite <- ?(skel_is_some _ _ x Hs); auto.
Qed.

(** the parents' child entries agree with the nodes all the way up *)
Inductive sloc (c : gmap id core) : id -> id -> pos -> Prop :=
| sloc_root x cx : c !! x = Some cx -> o_par cx = None -> sloc c x x []
| sloc_child x cx q cq rel r p : c !! x = Some cx -> o_par cx = Some q -> c !! q = Some cq ->
    gchildren (o_grn cq) !! o_idx cx = Some (rel, o_grn cx) -> o_mut cq = o_mut cx -> sloc c q r p -> sloc c x r (p ++ [o_idx cx]).
Lemma sloc_loc c x r p : sloc c x r p -> loc c x r p.
Proof. induction 1; econstructor; eauto. Qed.
Lemma sloc_gsub c x r p : sloc c x r p -> exists cr cx, c !! r = Some cr /\ o_par cr = None /\ c !! x = Some cx /\
  gsub (o_grn cr) p = Some (o_grn cx) /\ o_mut cr = o_mut cx.
Proof.
  induction 1 as [x cx Hx Hp|x cx q cq rel r p Hx Hp Hq Hch Hm Hl (cr&cq'&Hr&Hrp&Hq'&Hg&Hmr)].
  - exists cx, cx. done.
  - assert (cq' = cq) as -> by congruence. exists cr, cx. split_and!; try done; [|congruence].
    rewrite gsub_snoc, Hg. simpl. by rewrite Hch.
Qed.
Lemma loc_sloc c K x r p : shape c K -> loc c x r p -> sloc c x r p.
Proof.
  intros Hs. induction 1 as [x cx Hx Hp|x cx q r p Hx Hp Hq IH]; [by econstructor|].
  destruct (sh_child _ _ Hs _ _ _ Hx Hp) as (cq&rel&Hcq&Hm&Hch&_). by econstructor.
Qed.
(** a node is not above its ancestors *)
Lemma sloc_upd c n cn x r p q : c !! n = Some cn -> loc c n r q -> length p < length q -> sloc c x r p ->
  forall cn', sloc (<[n:=cn']> c) x r p.
Proof.
  intros Hn Hln Hlen Hs cn'. induction Hs as [x cx Hx Hp|x cx y cy rel r p Hx Hp Hy Hch Hm Hl IH].
  - assert (x <> n) as Hne. { intros ->. destruct (loc_inv_root _ _ _ _ _ Hln Hx Hp) as [_ ->]. simpl in Hlen. lia. }
    eapply sloc_root; [by rewrite lookup_insert_ne|done].
  - rewrite app_length in Hlen; simpl in Hlen.
    assert (x <> n) as Hne.
    { intros ->. pose proof (sloc_loc _ _ _ _ Hl) as Hl'. pose proof (loc_child _ _ _ _ _ _ Hx Hp Hl') as Hlx.
      destruct (loc_fun _ _ _ _ Hln _ _ Hlx) as [_ <-]. rewrite app_length in Hlen; simpl in Hlen. lia. }
    assert (y <> n) as Hne2.
    { intros ->. destruct (loc_fun _ _ _ _ Hln _ _ (sloc_loc _ _ _ _ Hl)) as [_ <-]. lia. }
    eapply sloc_child; [by rewrite lookup_insert_ne|done|by rewrite lookup_insert_ne|done|done|]. apply IH; [done|lia].
Qed.

(** the invariant on the way up: the children of [node] fit [new], which [node] does not have yet *)
Record shapeH (c : gmap id core) (K : id -> list id) (node : id) (new : green) : Prop := {
  hh_child : forall x cx q, c !! x = Some cx -> o_par cx = Some q ->
    exists cq rel, c !! q = Some cq /\ o_mut cq = o_mut cx /\
      gchildren (if decide (q = node) then new else o_grn cq) !! o_idx cx = Some (rel, o_grn cx) /\
      (o_mut cx = false -> o_off cx = (o_off cq + rel)%N);
  hh_root : forall x cx, c !! x = Some cx -> o_par cx = None -> o_mut cx = false -> o_off cx = 0%N;
  hh_K : forall q x, x ∈ K q <-> exists cx, c !! x = Some cx /\ o_par cx = Some q;
  hh_nodup : forall q, NoDup (K q);
  hh_sorted : forall q cq, c !! q = Some cq -> o_mut cq = true -> StronglySorted lt (map (ix c) (K q)) }.
Lemma sorted_inj c l x y : StronglySorted lt (map (ix c) l) -> x ∈ l -> y ∈ l -> ix c x = ix c y -> x = y.
Proof.
  induction l as [|z l IH]; intros Hs Hx Hy Hxy; [by apply elem_of_nil in Hx|]. simpl in Hs. inversion Hs as [|? ? Hs' Hf]; subst.
  rewrite Forall_forall in Hf.
  apply elem_of_cons in Hx as [->|Hx]; apply elem_of_cons in Hy as [->|Hy]; auto.
  - assert (ix c z < ix c y) by (apply Hf, elem_of_map; eauto). lia.
  - assert (ix c z < ix c x) by (apply Hf, elem_of_map; eauto). lia.
Qed.
Lemma gch_kids g i rel x : gchildren g !! i = Some (rel, x) -> kids g !! i = Some x.
Proof. intros H. unfold kids. by rewrite lookup_map, H. Qed.
Lemma kids_gch g i x : kids g !! i = Some x -> exists rel, gchildren g !! i = Some (rel, x).
Proof. unfold kids. rewrite lookup_map. destruct (gchildren g !! i) as [[rel y]|]; [|done]. intros [= <-]. eauto. Qed.

Lemma wpx_respine_loop env fuel : forall node new h K R G r p cn,
  henv_ok env -> shapeH (pc (P h)) K node new -> sloc (pc (P h)) node r p -> pc (P h) !! node = Some cn -> o_mut cn = true ->
  gis_node (o_grn cn) = true ->
  (forall x, x ∈ R <-> exists cx, pc (P h) !! x = Some cx /\ o_par cx = None) -> NoDup R ->
  po (P h) ≡ₚ new :: map (gr (pc (P h))) R ++ G -> Forall wfg (po (P h)) -> cohl (po (P h)) -> length p < fuel ->
  wpx (h_respine_loop env fuel node new)
    (fun _ h' => pr (P h') = pr (P h) /\ pf (P h') = pf (P h) /\ pn (P h') = pn (P h) /\ pv (P h') = pv (P h) /\
       skel (pc (P h)) (pc (P h')) /\ shape (pc (P h')) K /\ owned (pc (P h')) R (po (P h')) G /\
       (forall y cy, pc (P h) !! y = Some cy -> o_par cy = None -> y <> r -> pc (P h') !! y = Some cy) /\
       erase (gr (pc (P h')) r) = treplace (erase (gr (pc (P h)) r)) p (erase new))
    (fun e => e = Panic /\ (u32_max < blen (ttext (treplace (erase (gr (pc (P h)) r)) p (erase new))))%N) h.
Proof.
  induction fuel as [|fuel IH]; intros node new h K R G r p cn Henv Hh Hsl Hn Hm Hnode HR HRn Hpo Hwf Hco Hfuel; [lia|].
  cbn [h_respine_loop].
  apply wpx_wp_bind. eapply wp_get; [exact Hn|]. intros n En _ _ _ _.
  assert (n_grn n = o_grn cn) as -> by (by rewrite <- En). assert (n_par n = o_par cn) as -> by (by rewrite <- En).
  assert (n_idx n = o_idx cn) as -> by (by rewrite <- En). clear En.
  apply wpx_wp_bind, wp_assert; [done|].
  apply wpx_wp_bind. eapply wp_set_grn; [exact Hn|]. intros h1 E1.
  assert (Hwnew : wfg new). { rewrite Forall_forall in Hwf. apply Hwf. rewrite Hpo. left. }
  pose proof (sloc_loc _ _ _ _ Hsl) as Hloc.
  destruct (sloc_gsub _ _ _ _ Hsl) as (cr&cn'&Hr&Hrp&Hn'&Hgs&Hmr). assert (cn' = cn) as -> by congruence.
  assert (Hrin : gr (pc (P h)) r ∈ po (P h)).
  { rewrite Hpo. right. apply elem_of_app. left. apply elem_of_map. exists r. split; [done|]. apply HR. eauto. }
  set (c := pc (P h)) in *. set (c1 := <[node:=c_grn new cn]> c) in *.
  assert (Hsk1 : skel c c1) by (by apply skel_grn).
  assert (Hgrr : gr c r = o_grn cr) by (unfold gr; by rewrite Hr).
  destruct (o_par cn) as [q|] eqn:Hp.
  - (* the parent gets a new green as well *)
    inversion Hsl as [? cx0 Hx0 Hp0|? cx0 q0 cq rel ? p' Hx0 Hp0 Hq Hch Hmq Hslq]; subst; [congruence|].
    assert (cx0 = cn) as -> by congruence. assert (q0 = q) as -> by congruence. clear Hx0 Hp0.
    rewrite app_length in Hfuel; simpl in Hfuel.
    assert (Hrn : r <> node) by (intros ->; congruence).
    assert (Hqn : q <> node).
    { intros ->. destruct (loc_fun _ _ _ _ Hloc _ _ (sloc_loc _ _ _ _ Hslq)) as [_ E].
      apply (f_equal length) in E. rewrite app_length in E; simpl in E. lia. }
    destruct (sloc_gsub _ _ _ _ Hslq) as (cr'&cq'&Hr'&_&Hq'&Hgsq&_). assert (cr' = cr) as -> by congruence. assert (cq' = cq) as -> by congruence.
    assert (Hsl1 : sloc c1 q r p').
    { eapply (sloc_upd c node cn); try done. rewrite app_length; simpl; lia. }
    assert (Hq1 : c1 !! q = Some cq) by (unfold c1; by rewrite lookup_insert_ne).
    assert (Hgr1 : forall y, y ∈ R -> gr c1 y = gr c y).
    { intros y (cy&Hy&Hpy)%HR. unfold gr, c1. rewrite lookup_insert_ne; [done|]. intros <-. congruence. }
    assert (Hpo1 : po (P h1) = po (P h)) by (by rewrite E1). assert (Hpc1 : pc (P h1) = c1) by (by rewrite E1).
    assert (Hlive : live (po (P h)) (o_grn cq)).
    { exists (gr c r), p'. split; [done|]. by rewrite Hgrr. }
    assert (wfg (o_grn cq)) as Hwq. { eapply wfg_gsub; [|exact Hgsq]. rewrite Forall_forall in Hwf. apply Hwf. by rewrite <- Hgrr. }
    apply wpx_wp_bind. eapply (wp_green_of q cq); [by rewrite Hpc1|by rewrite Hpo1|].
    apply wpx_wp_bind, wp_assert; [by eapply gch_node|].
    apply wpx_bind.
    eapply (wpx_green_build env _ (Some new)
      (fun g => gkind g = gkind (o_grn cq) /\ gis_node g = true /\ erase g = treplace (erase (o_grn cq)) [o_idx cn] (erase new) /\
                kids g = <[o_idx cn := new]> (kids (o_grn cq)))
      (fun e => e = Panic /\ (u32_max < blen (ttext (treplace (erase (o_grn cq)) [o_idx cn] (erase new))))%N)); rewrite ?Hpo1; try done.
    + rewrite Hpo. left.
    + intros a. pose proof (cursor_at_child (o_grn cq) [] (CRoot (o_grn cq)) (o_idx cn) _ eq_refl Hch) as Hcc.
      pose proof (replace_step (o_grn cq) a [] (o_idx cn) _ (CRoot (o_grn cq)) new Hwq Hwnew eq_refl Hcc) as Hst. simpl in Hst.
      destruct (green_replace_child Checked a (o_grn cq) (o_idx cn) new) as [g|e] eqn:Eg; [|done].
      destruct Hst as (Hwg&Hk&He&Hkids). apply green_new_children in Eg as (_&Hisn&_&Ha).
      split_and!; try done. intros x Hx. rewrite Hkids in Hx.
      apply elem_of_list_lookup in Hx as [j Hj]. destruct (decide (j = o_idx cn)) as [->|Hne].
      * rewrite list_lookup_insert in Hj by (apply gch_kids in Hch; by eapply lookup_lt_Some). injection Hj as <-.
        apply live_elem. rewrite Hpo. left.
      * rewrite list_lookup_insert_ne in Hj by done. eapply live_kid; [exact Hlive|]. by eapply elem_of_list_lookup_2.
    + intros g h2 o' (Hgk&Hgn&Hge&Hgkids) Hwg Hd E2 Hwf2 Hco2. simpl in Hd.
      assert (Hpc2 : pc (P h2) = c1) by (by rewrite E2, Hpc1).
      assert (Hpo2 : po (P h2) = g :: o') by (by rewrite E2).
      eapply wpx_mono.
      * eapply (IH q g h2 K R G r p' cq); rewrite ?Hpc2, ?Hpo2; try done.
        -- constructor.
           ++ intros x cx qx Hx Hpx. destruct (decide (x = node)) as [->|Hxn].
              ** unfold c1 in Hx. rewrite lookup_insert in Hx. injection Hx as <-. simpl in Hpx |- *.
                 assert (qx = q) as -> by congruence.
                 destruct (kids_gch g (o_idx cn) new) as [rel' Hrel'].
                 { rewrite Hgkids. apply list_lookup_insert. apply gch_kids in Hch. by eapply lookup_lt_Some. }
                 exists cq, rel'. rewrite decide_True by done. split_and!; try done. congruence.
              ** unfold c1 in Hx. rewrite lookup_insert_ne in Hx by done.
                 destruct (hh_child _ _ _ _ Hh _ _ _ Hx Hpx) as (cqx&relx&Hqx&Hmx&Hchx&Hox).
                 destruct (decide (qx = node)) as [->|Hqxn].
                 { assert (cqx = cn) as -> by congruence. exists (c_grn new cn), relx. unfold c1. rewrite lookup_insert.
                   split; [done|]. split; [done|]. rewrite decide_False by done. split; [done|]. done. }
                 destruct (decide (qx = q)) as [->|Hqxq].
                 { assert (cqx = cq) as -> by congruence.
                   assert (o_idx cx <> o_idx cn) as Hixn.
                   { intros Heq. apply Hxn. eapply (sorted_inj c (K q)).
                     - eapply (hh_sorted _ _ _ _ Hh); [exact Hq|congruence].
                     - apply (hh_K _ _ _ _ Hh). eauto.
                     - apply (hh_K _ _ _ _ Hh). eauto.
                     - unfold ix. rewrite Hx. fold c in Hn. rewrite Hn. done. }
                   destruct (kids_gch g (o_idx cx) (o_grn cx)) as [rel' Hrel'].
                   { rewrite Hgkids, list_lookup_insert_ne by done. by eapply gch_kids. }
                   exists cq, rel'. split_and!; try done. congruence. }
                 exists cqx, relx. unfold c1. rewrite lookup_insert_ne by done. done.
           ++ intros x cx Hx. destruct (decide (x = node)) as [->|Hxn].
              ** unfold c1 in Hx. rewrite lookup_insert in Hx. injection Hx as <-. simpl. congruence.
              ** unfold c1 in Hx. rewrite lookup_insert_ne in Hx by done. by apply (hh_root _ _ _ _ Hh _ _ Hx).
           ++ intros qx x. rewrite (hh_K _ _ _ _ Hh). split; intros (cx&Hx&Hpx).
              ** destruct (skel_some _ _ _ _ Hsk1 Hx) as (cx'&?&?&_). exists cx'. split; [done|congruence].
              ** destruct (skel_some _ _ _ _ (skel_sym _ _ Hsk1) Hx) as (cx'&?&?&_). exists cx'. split; [done|congruence].
           ++ apply (hh_nodup _ _ _ _ Hh).
           ++ intros qx cqx Hqx Hmx. destruct (skel_some _ _ _ _ (skel_sym _ _ Hsk1) Hqx) as (cqx'&Hqx'&_&_&Hmm&_).
              rewrite (map_ext_in _ (ix c)); [eapply (hh_sorted _ _ _ _ Hh); [exact Hqx'|congruence]|].
              intros y _. by apply skel_ix.
        -- congruence.
        -- by eapply gch_node.
        -- intros x. rewrite HR. split; intros (cx&Hx&Hpx).
           ++ destruct (skel_some _ _ _ _ Hsk1 Hx) as (cx'&?&?&_). exists cx'. split; [done|congruence].
           ++ destruct (skel_some _ _ _ _ (skel_sym _ _ Hsk1) Hx) as (cx'&?&?&_). exists cx'. split; [done|congruence].
        -- constructor. apply (Permutation_cons_inv (a := new)). rewrite <- Hd, Hpo. constructor. f_equiv.
           apply reflexive_eq, map_ext_in. intros y Hy. by rewrite Hgr1.
        -- lia.
      * intros [] h3 (Epr&Epf&Epn&Epv&Hsk&Hsh&Hown&Hoth&Her). rewrite Hpc2 in Hsk, Hoth, Her.
        rewrite Epr, Epf, Epn, Epv, E2, E1. psimpg. split_and!; try done.
        -- by eapply skel_trans.
        -- intros y cy Hy Hpy Hyr. apply Hoth; [|done|done]. unfold c1. rewrite lookup_insert_ne; [done|]. intros <-. congruence.
        -- rewrite Her, Hge. rewrite Hgr1 by (apply HR; eauto).
           rewrite (treplace_app _ _ _ _ (erase (o_grn cq))); [done|]. rewrite Hgrr. rewrite erase_gsub, Hgsq. done.
      * intros e [-> Hbig]. split; [done|]. rewrite Hpc2, Hge in Hbig. rewrite Hgr1 in Hbig by (apply HR; eauto).
        rewrite (treplace_app _ _ _ _ (erase (o_grn cq))); [done|]. rewrite Hgrr. rewrite erase_gsub, Hgsq. done.
    + intros e [-> Hbig]. split; [done|].
      assert (tsub (erase (gr c r)) p' = Some (erase (o_grn cq))) as Hts by (rewrite Hgrr, erase_gsub, Hgsq; done).
      rewrite (treplace_app _ _ _ _ _ Hts). eapply N.lt_le_trans; [exact Hbig|]. by eapply treplace_text_le.
  - (* the root *)
    destruct (loc_inv_root _ _ _ _ _ Hloc Hn Hp) as [-> ->]. assert (cr = cn) as -> by congruence.
    assert (Hpo1 : po (P h1) = po (P h)) by (by rewrite E1).
    apply wpx_wp. eapply wp_green_drop; rewrite ?Hpo1; [done|by rewrite <- Hgrr|]. intros h2 o' E2 Hperm.
    rewrite E1 in E2. psimp E2. fold c c1 in E2. rewrite E2. psimpg.
    assert (Hrl : exists R0, R ≡ₚ node :: R0) by (apply elem_of_Permutation, HR; eauto). destruct Hrl as [R0 HR0].
    assert (node ∉ R0) as HnR0. { rewrite HR0 in HRn. by inversion HRn. }
    assert (Hg1 : gr c1 node = new) by (unfold gr, c1; by rewrite lookup_insert).
    split_and!; try done.
    + constructor.
      * intros x cx q Hx Hpx. unfold c1 in Hx. destruct (decide (x = node)) as [->|Hne].
        -- rewrite lookup_insert in Hx. injection Hx as <-. simpl in Hpx. congruence.
        -- rewrite lookup_insert_ne in Hx by done. destruct (hh_child _ _ _ _ Hh _ _ _ Hx Hpx) as (cq&rel&Hq&Hmq&Hch&Ho).
           destruct (decide (q = node)) as [->|Hqn].
           ++ assert (cq = cn) as -> by congruence. exists (c_grn new cn), rel. unfold c1. rewrite lookup_insert. done.
           ++ exists cq, rel. unfold c1. rewrite lookup_insert_ne by done. done.
      * intros x cx Hx Hpx Hmx. unfold c1 in Hx. destruct (decide (x = node)) as [->|Hne].
        -- rewrite lookup_insert in Hx. injection Hx as <-. simpl in Hmx. congruence.
        -- rewrite lookup_insert_ne in Hx by done. exact (hh_root _ _ _ _ Hh _ _ Hx Hpx Hmx).
      * intros qx x. rewrite (hh_K _ _ _ _ Hh). split; intros (cx&Hx&Hpx).
        -- destruct (skel_some _ _ _ _ Hsk1 Hx) as (cx'&?&?&_). exists cx'. split; [done|congruence].
        -- destruct (skel_some _ _ _ _ (skel_sym _ _ Hsk1) Hx) as (cx'&?&?&_). exists cx'. split; [done|congruence].
      * apply (hh_nodup _ _ _ _ Hh).
      * intros qx cqx Hqx Hmx. destruct (skel_some _ _ _ _ (skel_sym _ _ Hsk1) Hqx) as (cqx'&Hqx'&_&_&Hmm&_).
        rewrite (map_ext_in _ (ix c)); [eapply (hh_sorted _ _ _ _ Hh); [exact Hqx'|congruence]|].
        intros y _. by apply skel_ix.
    + constructor.
      * intros x. rewrite HR. split; intros (cx&Hx&Hpx).
        -- destruct (skel_some _ _ _ _ Hsk1 Hx) as (cx'&?&?&_). exists cx'. split; [done|congruence].
        -- destruct (skel_some _ _ _ _ (skel_sym _ _ Hsk1) Hx) as (cx'&?&?&_). exists cx'. split; [done|congruence].
      * done.
      * apply (Permutation_cons_inv (a := o_grn cn)). rewrite <- Hperm, Hpo, HR0. simpl. rewrite Hg1, Hgrr.
        rewrite Permutation_swap. do 3 f_equiv. apply reflexive_eq, map_ext_in. intros y Hy. unfold gr, c1.
        rewrite lookup_insert_ne; [done|]. by intros ->.
      * rewrite Hperm in Hwf. by inversion Hwf.
      * eapply cohl_subset; [|exact Hco]. intros g Hg. apply live_elem. rewrite Hperm. by right.
    + intros y cy Hy Hpy Hyr. unfold c1. by rewrite lookup_insert_ne.
    + by rewrite Hg1.
Qed.

(** ** Positions in mutable trees are represented by one node *)
Lemma loc_inj_mut c K x y r p : shape c K -> loc c x r p -> loc c y r p -> (o_mut <$> c !! r) = Some true -> x = y.
Proof.
  intros Hs Hx Hy Hm. revert y Hy. induction Hx as [x cx Hcx Hp|x cx q r p Hcx Hp Hq IH]; intros y Hy.
  - destruct (loc_alive _ _ _ _ Hy) as [cy Hcy]. destruct (o_par cy) as [q|] eqn:Hpy.
    + destruct (loc_inv_child _ _ _ _ _ _ Hy Hcy Hpy) as (p'&E&_). by destruct p'.
    + by destruct (loc_inv_root _ _ _ _ _ Hy Hcy Hpy) as [-> _].
  - destruct (loc_alive _ _ _ _ Hy) as [cy Hcy]. destruct (o_par cy) as [q'|] eqn:Hpy.
    2:{ destruct (loc_inv_root _ _ _ _ _ Hy Hcy Hpy) as [_ E]. by destruct p. }
    destruct (loc_inv_child _ _ _ _ _ _ Hy Hcy Hpy) as (p'&[<- Eix]%app_inj_tail&Hq').
    assert (q = q') as <- by (by apply IH).
    destruct (loc_gsub _ _ Hs _ _ _ Hq) as (cr&cq&Hr&_&Hcq&_&Hmm). rewrite Hr in Hm. injection Hm as Hm.
    eapply (sorted_inj c (K q)); [eapply (sh_sorted _ _ Hs); [exact Hcq|congruence]|apply (sh_K _ _ Hs); eauto..|].
    unfold ix. by rewrite Hcx, Hcy.
Qed.
Lemma sloc_agree c c' x r p : sloc c x r p ->
  (forall y p', loc c y r p' -> length p' <= length p -> c' !! y = c !! y) -> sloc c' x r p.
Proof.
  induction 1 as [x cx Hx Hp|x cx q cq rel r p Hx Hp Hq Hch Hm Hl IH]; intros Hag.
  - eapply sloc_root; [|done]. rewrite (Hag x []); [done|by eapply loc_root|done].
  - pose proof (sloc_loc _ _ _ _ Hl) as Hlq. rewrite app_length in Hag; simpl in Hag.
    eapply sloc_child; [|done| |done|done|].
    + rewrite (Hag x (p ++ [o_idx cx])); [done|by eapply loc_child|rewrite app_length; simpl; lia].
    + rewrite (Hag q p); [done|done|lia].
    + apply IH. intros y p' Hy Hlen. apply (Hag y p'); [done|lia].
Qed.
Lemma sorted_map_mono {A} (f g : A -> nat) l :
  (forall a b, a ∈ l -> b ∈ l -> f a < f b -> g a < g b) -> StronglySorted lt (map f l) -> StronglySorted lt (map g l).
Proof.
  induction l as [|a l IH]; intros Hm Hs; simpl; [constructor|]. simpl in Hs. inversion Hs as [|? ? Hs' Hf]; subst. constructor.
  - apply IH; [|done]. intros; apply Hm; [by right|by right|done].
  - rewrite Forall_forall in Hf |- *. intros y (b&->&Hb)%elem_of_map. apply Hm; [left|by right|]. apply Hf, elem_of_map. eauto.
Qed.
Lemma sorted_remove {A} (f : A -> nat) l1 x l2 :
  StronglySorted lt (map f (l1 ++ x :: l2)) -> StronglySorted lt (map f (l1 ++ l2)) /\ (forall y, y ∈ l1 ++ l2 -> f y <> f x).
Proof.
  induction l1 as [|a l1 IH]; simpl; intros Hs; inversion Hs as [|? ? Hs' Hf]; subst; rewrite Forall_forall in Hf.
  - split; [done|]. intros y Hy. assert (f x < f y) by (apply Hf, elem_of_map; eauto). lia.
  - destruct (IH Hs') as [IH1 IH2]. split.
    + constructor; [done|]. rewrite Forall_forall. intros y (b&->&Hb)%elem_of_map. apply Hf, elem_of_map. exists b. split; [done|].
      apply elem_of_app in Hb as [Hb|Hb]; apply elem_of_app; [by left|by right; right].
    + intros y [->|Hy]%elem_of_cons; [|by apply IH2]. assert (f a < f x); [|lia].
      apply Hf, elem_of_map. exists x. split; [done|]. apply elem_of_app. right. left.
Qed.

(** ** [detach] *)
Lemma wp_detach_root env x h H G cx :
  inv h H G -> pc (P h) !! x = Some cx -> o_mut cx = true -> o_par cx = None ->
  wp (h_detach env x) (fun _ h' => P h' = P h) h.
Proof.
  intros Hi Hx Hm Hp. pose proof Hi as (K&R&Hs&Ho&Hl&Hc).
  apply wp_bind. eapply wp_get; [exact Hx|]. intros n En Hrc _ _ _.
  apply wp_bind, wp_assert. { rewrite <- En in Hm. done. }
  apply wp_bind, wp_assert.
  { rewrite (ct_rc _ _ _ _ _ Hc x ltac:(eauto)) in Hrc. injection Hrc as <-. apply Nat.ltb_lt.
    destruct (cnt x H + length (K x)) eqn:E; [|lia]. by pose proof (ct_live _ _ _ _ _ Hc x ltac:(eauto) E). }
  apply wp_bind. eapply wp_set_par; [exact Hx|]. intros h1 E1.
  assert (n_par n = None) as -> by (by rewrite <- Hp, <- En). apply wp_skip. rewrite E1.
  rewrite insert_id; [by destruct (P h)|]. rewrite Hx. f_equal. destruct cx; simpl in *; by subst.
Qed.
(** what a handle shows afterwards *)
Definition detached (c c' : gmap id core) (x r : id) (p : pos) (i : nat) (y : id) : Prop :=
  forall r' s, loc c y r' s ->
    if decide (r' = r) then
      match pos_removed p i s with
      | inl s' => loc c' y x s' /\ gr c' x = gr c x /\ (o_mut <$> c' !! x) = Some true
      | inr s' => loc c' y r s' /\ erase (gr c' r) = tdelete_child (erase (gr c r)) p i /\ (o_mut <$> c' !! r) = Some true
      end
    else loc c' y r' s /\ same_root c c' r'.

Lemma wp_detach env x h H G cx r p :
  henv_ok env -> inv h H G -> pc (P h) !! x = Some cx -> o_mut cx = true -> loc (pc (P h)) x r (p ++ [o_idx cx]) ->
  wp (h_detach env x)
     (fun _ h' => inv h' H G /\ forall y, y ∈ H -> detached (pc (P h)) (pc (P h')) x r p (o_idx cx) y) h.
Proof.
  intros Henv Hi Hx Hm Hloc. pose proof Hi as (K&R&Hs&Ho&Hl&Hc). set (c := pc (P h)) in *.
  destruct (o_par cx) as [q|] eqn:Hp; [|by destruct (loc_inv_root _ _ _ _ _ Hloc Hx Hp) as [_ ?]; destruct p].
  destruct (loc_inv_child _ _ _ _ _ _ Hloc Hx Hp) as (p'&[<- _]%app_inj_tail&Hlq). set (i := o_idx cx) in *.
  destruct (sh_child _ _ Hs _ _ _ Hx Hp) as (cq&rel&Hq&Hmq&Hch&_). fold i in Hch. rewrite Hm in Hmq.
  assert (x ∈ K q) as HxK by (apply (sh_K _ _ Hs); eauto).
  apply elem_of_list_split in HxK as (l1&l2&HK).
  pose proof (sh_nodup _ _ Hs q) as Hnd. rewrite HK in Hnd.
  pose proof (sh_sorted _ _ Hs _ _ Hq Hmq) as Hsort. rewrite HK in Hsort.
  destruct (lk_mut _ _ _ _ _ Hl _ _ Hq Hmq) as [Hfq Hcq]. rewrite HK in Hfq, Hcq.
  assert (Hqx : q <> x). { intros ->. pose proof (sh_gsize _ _ Hs _ _ _ _ Hx Hp Hx). lia. }
  assert (HqK : q ∉ K q).
  { intros (cq'&Hq'&Hpq)%(sh_K _ _ Hs). pose proof (sh_gsize _ _ Hs _ _ _ _ Hq' Hpq Hq'). lia. }
  assert (HKc : forall y, y ∈ K q -> exists cy, c !! y = Some cy /\ o_par cy = Some q) by (intros y; apply (sh_K _ _ Hs)).
  assert (Hmr : (o_mut <$> c !! r) = Some true).
  { destruct (loc_gsub _ _ Hs _ _ _ Hloc) as (cr&cx'&Hr&_&Hx'&_&Hmm). rewrite Hr. simpl. congruence. }
  (* the node *)
  apply wp_bind. eapply wp_get; [exact Hx|]. intros n En Hrc _ _ _.
  apply wp_bind, wp_assert. { rewrite <- En in Hm. done. }
  apply wp_bind, wp_assert.
  { rewrite (ct_rc _ _ _ _ _ Hc x ltac:(eauto)) in Hrc. injection Hrc as <-. apply Nat.ltb_lt.
    destruct (cnt x H + length (K x)) eqn:E; [|lia]. by pose proof (ct_live _ _ _ _ _ Hc x ltac:(eauto) E). }
  apply wp_bind. eapply wp_set_par; [exact Hx|]. intros h1 E1. fold c in E1.
  assert (n_par n = Some q) as -> by (by rewrite <- Hp, <- En). clear n En Hrc.
  set (c1 := <[x:=c_par None cx]> c) in *.
  assert (Hpc1 : pc (P h1) = c1) by (by rewrite E1).
  apply wp_bind. apply wp_bind. eapply (wp_get x _ _ (c_par None cx)); [rewrite Hpc1; apply lookup_insert|].
  intros n En _ _ _ _. apply wp_ret. assert (n_idx n = i) as -> by (unfold i; rewrite <- (eq_refl : o_idx (c_par None cx) = o_idx cx), <- En; done). clear n En.
  apply wp_bind. eapply (wp_adjust x (i + 1) (DSub 1) l1 l2); rewrite ?Hpc1.
  { by rewrite E1. } { done. }
  { intros y Hy. rewrite <- HK in Hy. destruct (HKc y Hy) as (cy&Hcy&Hpy). unfold c1. destruct (decide (y = x)) as [->|Hne].
    - rewrite lookup_insert. eexists. split; [done|]. simpl. fold i. lia.
    - rewrite lookup_insert_ne by done. exists cy. split; [done|]. intros Hge. simpl.
      destruct (o_idx cy) as [|k]; [lia|]. done. }
  intros h2 c2 E2 Hc2. rewrite E1 in E2. psimp E2. rewrite <- HK in Hc2.
  (* the cores now *)
  set (f := adjc (i + 1) (DSub 1)) in *.
  assert (Hx2 : c2 !! x = Some (c_par None cx)).
  { rewrite Hc2, decide_True by (rewrite HK; apply elem_of_app; right; left). unfold c1. rewrite lookup_insert. simpl.
    unfold f, adjc. simpl. fold i. destruct (Nat.leb_spec (i + 1) i); [lia|done]. }
  assert (HyK2 : forall y cy, y <> x -> y ∈ K q -> c !! y = Some cy -> c2 !! y = Some (f cy)).
  { intros y cy Hne Hy Hcy. rewrite Hc2, decide_True by done. unfold c1. by rewrite lookup_insert_ne, Hcy. }
  assert (Hyn2 : forall y, y ∉ K q -> c2 !! y = c !! y).
  { intros y Hy. rewrite Hc2, decide_False by done. unfold c1. rewrite lookup_insert_ne; [done|]. intros <-.
    apply Hy. rewrite HK. apply elem_of_app. right. left. }
  assert (Hf : forall cy, o_par (f cy) = o_par cy /\ o_grn (f cy) = o_grn cy /\ o_mut (f cy) = o_mut cy /\ o_off (f cy) = o_off cy /\
     o_idx (f cy) = if i <? o_idx cy then pred (o_idx cy) else o_idx cy).
  { intros cy. unfold f, adjc, dl. destruct (Nat.leb_spec (i + 1) (o_idx cy)), (Nat.ltb_spec i (o_idx cy)); try lia; simpl; [|done].
    split_and!; try done. lia. }
  assert (Hc2c : forall y cy2, c2 !! y = Some cy2 -> exists cy, c !! y = Some cy /\ o_grn cy2 = o_grn cy /\ o_mut cy2 = o_mut cy /\ o_off cy2 = o_off cy /\
     (y = x /\ cy2 = c_par None cx \/ y <> x /\ y ∈ K q /\ cy2 = f cy \/ y ∉ K q /\ cy2 = cy)).
  { intros y cy2 Hy2. destruct (decide (y = x)) as [->|Hne].
    - rewrite Hx2 in Hy2. injection Hy2 as <-. exists cx. split_and!; try done. by left.
    - destruct (decide (y ∈ K q)) as [Hin|Hnin].
      + destruct (HKc y Hin) as (cy&Hcy&_). rewrite (HyK2 _ _ Hne Hin Hcy) in Hy2. injection Hy2 as <-. exists cy.
        destruct (Hf cy) as (_&?&?&?&_). split_and!; try done. right. by left.
      + rewrite (Hyn2 _ Hnin) in Hy2. exists cy2. split_and!; try done. right. by right. }
  assert (Hcc2 : forall y cy, c !! y = Some cy -> exists cy2, c2 !! y = Some cy2 /\ o_grn cy2 = o_grn cy /\ o_mut cy2 = o_mut cy /\ o_off cy2 = o_off cy).
  { intros y cy Hcy. destruct (decide (y = x)) as [->|Hne]; [assert (cy = cx) as -> by congruence; eexists; split; [exact Hx2|done]|].
    destruct (decide (y ∈ K q)) as [Hin|Hnin].
    - exists (f cy). destruct (Hf cy) as (_&?&?&?&_). split_and!; auto.
    - exists cy. rewrite Hyn2 by done. done. }
  assert (Hq2 : c2 !! q = Some cq) by (by rewrite Hyn2).
  assert (HRx : forall y cy, c !! y = Some cy -> o_par cy = None -> c2 !! y = Some cy).
  { intros y cy Hy Hpy. rewrite Hyn2; [done|]. intros (?&?&?)%HKc. congruence. }
  (* unlink *)
  apply wp_bind. eapply (wp_unlink q x l1 l2); rewrite ?E2; psimpg.
  { eauto. } { intros y Hy. rewrite <- HK in Hy. destruct (HKc y Hy) as (cy&Hcy&_). destruct (Hcc2 _ _ Hcy) as (?&?&_). eauto. }
  { done. } { done. } { done. }
  intros h3 n' q' E3 Hcirc Hnx Hqx' Hfr.
  assert (Hpc3 : pc (P h3) = c2) by (by rewrite E3). assert (Hpo3 : po (P h3) = po (P h)) by (by rewrite E3).
  assert (Hlx : live (po (P h)) (o_grn cx)) by (by eapply owned_live).
  assert (Hlq' : live (po (P h)) (o_grn cq)) by (by eapply owned_live).
  apply wp_bind. eapply (wp_green_of x (c_par None cx)); [by rewrite Hpc3|by rewrite Hpo3|]. simpl.
  apply wp_bind. eapply wp_green_own; [by rewrite Hpo3|]. intros h4 E4.
  assert (Hpc4 : pc (P h4) = c2) by (by rewrite E4, E3). assert (Hpo4 : po (P h4) = o_grn cx :: po (P h)) by (by rewrite E4, E3).
  apply wp_bind. eapply (wp_green_of q cq); [by rewrite Hpc4|rewrite Hpo4; eapply live_subset; [|exact Hlq']; intros; apply live_elem; by right|].
  apply wp_bind, wp_assert; [by eapply gch_node|].
  apply wp_bind. apply wp_bind. eapply (wp_get x _ _ (c_par None cx)); [by rewrite Hpc4|]. intros n En _ _ _ _. apply wp_ret.
  assert (n_idx n = i) as -> by (unfold i; rewrite <- (eq_refl : o_idx (c_par None cx) = o_idx cx), <- En; done). clear n En.
  pose proof (owned_wfg_live _ _ _ _ _ Ho Hlx) as Hwx. pose proof (owned_wfg_live _ _ _ _ _ Ho Hlq') as Hwq.
  pose proof (gch_kids _ _ _ _ Hch) as Hki. pose proof (lookup_lt_Some _ _ _ Hki) as Hilt.
  assert (Hwf4 : Forall wfg (po (P h4))) by (rewrite Hpo4; constructor; [done|apply (on_wf _ _ _ _ Ho)]).
  assert (Hco4 : cohl (po (P h4))).
  { rewrite Hpo4. eapply cohl_subset; [|apply (on_coh _ _ _ _ Ho)]. intros g [->|Hg]%elem_of_cons; [done|by apply live_elem]. }
  destruct (loc_gsub _ _ Hs _ _ _ Hlq) as (cr&cq0&Hr&Hrp&Hq0&Hgsq&_). assert (cq0 = cq) as -> by (fold c in Hq0; congruence).
  assert (Hts : tsub (erase (gr c r)) p = Some (erase (o_grn cq))) by (unfold gr; rewrite Hr; by rewrite erase_gsub, Hgsq).
  apply wp_bind. eapply (wp_wpx _ _ (fun _ => False)); [|by intros ? []].
  eapply (wpx_green_build env _ None
    (fun g => gkind g = gkind (o_grn cq) /\ gis_node g = true /\ kids g = take i (kids (o_grn cq)) ++ drop (S i) (kids (o_grn cq)))
    (fun _ => False)); try done.
  { intros a. unfold green_remove_child.
    pose proof (splice_exact a (o_grn cq) (Included i) (Included i) [] Hwq ltac:(constructor)) as Hsp. simpl in Hsp.
    destruct (green_splice_children Checked a (o_grn cq) (Included i) (Included i) []) as [g|e] eqn:Eg.
    - destruct Hsp as (_&Hk&Hn&Hkids). replace (i + 1) with (S i) in Hkids by lia.
      split_and!; try done.
      + unfold green_splice_children in Eg. apply res_bind_ok in Eg as (?&_&Eg). by apply green_new_children in Eg as (_&_&_&?).
      + apply built_wfg. eapply built_splice; [| |exact Eg]; [by apply wfg_built|constructor].
      + intros y Hy. eapply live_kid; [eapply live_subset; [|exact Hlq']; intros; apply live_elem; rewrite Hpo4; by right|].
        rewrite Hkids in Hy. apply elem_of_app in Hy as [Hy|Hy]; [by eapply elem_of_take'|by eapply elem_of_drop].
    - destruct Hsp as [_ [Hbad|Hbig]]; [apply Hbad; lia|].
      replace (i + 1) with (S i) in Hbig by lia.
      pose proof (wfg_bound _ Hwq) as Hfit. rewrite gtext_kids in Hfit by (by eapply gch_node).
      rewrite <- (take_drop_middle _ _ _ Hki) in Hfit. unfold gctext in *. rewrite !map_app, !concat_app, !blen_app in *. simpl in *.
      rewrite !blen_app in *. lia. }
  intros g' h5 o5 (Hgk&Hgn&Hgkids) Hwg Hd E5 Hwf5 Hco5. simpl in Hd. subst o5.
  assert (Hpc5 : pc (P h5) = c2) by (by rewrite E5).
  set (K2 := updK K q (l1 ++ l2)).
  assert (HK2 : forall y, y <> x -> forall z, y ∈ K2 z <-> y ∈ K z).
  { intros y Hyx z. unfold K2. destruct (decide (z = q)) as [->|Hne]; [rewrite updK_eq, HK|by rewrite updK_ne].
    rewrite !elem_of_app, elem_of_cons. naive_solver. }
  assert (HxK2 : forall z, x ∉ K2 z).
  { intros z. unfold K2. destruct (decide (z = q)) as [->|Hne].
    - rewrite updK_eq. apply NoDup_app in Hnd as (_&Hd1&Hnd2). inversion Hnd2 as [|? ? Hd2 _]; subst.
      intros [Hin|Hin]%elem_of_app; [|done]. apply (Hd1 _ Hin). left.
    - rewrite updK_ne by done. intros Hin. apply Hne. apply (sh_K_disj _ _ Hs x); [done|]. rewrite HK. apply elem_of_app. right. left. }
  assert (Hsloc2 : sloc c2 q r p).
  { eapply sloc_agree; [by eapply loc_sloc|]. intros y s Hly Hlen. apply Hyn2. intros (cy&Hcy&Hpy)%HKc.
    pose proof (loc_child _ _ _ _ _ _ Hcy Hpy Hlq) as Hly'. destruct (loc_fun _ _ _ _ Hly _ _ Hly') as [_ <-].
    rewrite app_length in Hlen. simpl in Hlen. lia. }
  destruct (sorted_remove (ix c) l1 x l2 Hsort) as [Hsort' Hixne].
  assert (Hixx : ix c x = i) by (unfold ix, i; by rewrite Hx).
  apply wp_bind. eapply (wp_wpx _ _ (fun e => e = Panic /\ (u32_max < blen (ttext (treplace (erase (gr c2 r)) p (erase g'))))%N)).
  - apply wpx_wp_bind, wp_size. eapply wpx_mono.
    + eapply (wpx_respine_loop env _ q g' h5 K2 (x :: R) G r p cq); rewrite ?Hpc5; try done.
      * (* shapeH *)
        constructor.
        -- intros y cy2 qy Hy2 Hpy. destruct (Hc2c _ _ Hy2) as (cy&Hcy&Hgy&Hmy&Hoy&[[-> ->]|[(Hne&Hin&->)|[Hnin ->]]]).
           ++ done.
           ++ destruct (Hf cy) as (Hfp&_&_&_&Hfi). rewrite Hfp in Hpy. destruct (HKc _ Hin) as (cy'&Hcy'&Hpy'). assert (cy' = cy) as -> by congruence.
              assert (qy = q) as -> by congruence.
              destruct (sh_child _ _ Hs _ _ _ Hcy Hpy') as (cq'&rely&Hq'&Hmqy&Hchy&_). assert (cq' = cq) as -> by congruence.
              apply gch_kids in Hchy.
              assert (o_idx cy <> i) as Hidx.
              { intros Heq. apply (Hixne y); [|unfold ix; rewrite Hcy, Hx; done].
                rewrite HK in Hin. apply elem_of_app in Hin as [?|[->|?]%elem_of_cons]; [apply elem_of_app; by left|done|apply elem_of_app; by right]. }
              destruct (kids_gch g' (o_idx (f cy)) (o_grn cy)) as [rel' Hrel'].
              { rewrite Hgkids, Hfi. destruct (Nat.ltb_spec i (o_idx cy)).
                - rewrite lookup_app_r; rewrite take_length_le by lia; [|lia]. rewrite lookup_drop. rewrite <- Hchy. f_equal. lia.
                - rewrite lookup_app_l by (rewrite take_length_le; lia). rewrite lookup_take by lia. done. }
              exists cq, rel'. rewrite decide_True, Hgy, Hmy by done. split_and!; try done. congruence.
           ++ assert (qy <> q) as Hqy. { intros ->. apply Hnin, (sh_K _ _ Hs). eauto. }
              destruct (sh_child _ _ Hs _ _ _ Hcy Hpy) as (cq'&rely&Hq'&Hmqy&Hchy&Hoffy).
              destruct (Hcc2 _ _ Hq') as (cq2&Hcq2&Eg&Em&Eo). exists cq2, rely. rewrite decide_False, Eg, Em, Eo by done. done.
        -- intros y cy2 Hy2 Hpy Hmy. destruct (Hc2c _ _ Hy2) as (cy&Hcy&Hgy&Hmy'&Hoy&[[-> ->]|[(Hne&Hin&->)|[Hnin ->]]]).
           ++ simpl in Hmy. congruence.
           ++ destruct (Hf cy) as (Hfp&_&_&_&Hfi). destruct (HKc _ Hin) as (cy'&Hcy'&Hpy'). congruence.
           ++ by apply (sh_root _ _ Hs _ _ Hcy).
        -- intros qy y. destruct (decide (y = x)) as [->|Hne].
           ++ split; [by intros ?%HxK2|]. rewrite Hx2. by intros (?&[= <-]&?).
           ++ rewrite HK2, (sh_K _ _ Hs) by done. split.
              ** intros (cy&Hcy&Hpy). destruct (decide (y ∈ K q)) as [Hin|Hnin].
                 { exists (f cy). destruct (Hf cy) as (->&_). split; [by apply HyK2|done]. }
                 { exists cy. by rewrite Hyn2. }
              ** intros (cy2&Hy2&Hpy). destruct (Hc2c _ _ Hy2) as (cy&Hcy&_&_&_&[[-> ->]|[(_&Hin&->)|[Hnin ->]]]); [done| |eauto].
                 destruct (Hf cy) as (Hfp&_). rewrite Hfp in Hpy. eauto.
        -- intros z. unfold K2. destruct (decide (z = q)) as [->|Hne].
           ++ rewrite updK_eq. apply NoDup_app in Hnd as (Hn1&Hd1&Hnd2). inversion Hnd2 as [|? ? Hd2 Hn2]; subst. apply NoDup_app. split_and!; [done| |done]. intros y Hy1 Hy2. apply (Hd1 y Hy1). by right.
           ++ rewrite updK_ne by done. apply (sh_nodup _ _ Hs).
        -- intros z cz Hz Hmz. destruct (Hc2c _ _ Hz) as (cz0&Hcz0&_&Hmz0&_). unfold K2. destruct (decide (z = q)) as [->|Hne].
           ++ rewrite updK_eq. eapply (sorted_map_mono (ix c)); [|exact Hsort'].
              assert (Hval : forall a, a ∈ l1 ++ l2 -> ix c a <> i /\ ix c2 a = if i <? ix c a then pred (ix c a) else ix c a).
              { intros a Ha. pose proof (Hixne a Ha) as Hne. rewrite Hixx in Hne. split; [done|].
                assert (a ∈ K q) as HaK. { rewrite HK. apply elem_of_app in Ha as [?|?]; apply elem_of_app; [by left|by right; right]. }
                assert (a <> x) as Hax by (intros ->; congruence).
                destruct (HKc a HaK) as (ca&Hca&_). unfold ix. rewrite (HyK2 a ca), Hca by done. by destruct (Hf ca) as (_&_&_&_&->). }
              intros a b Ha Hb Hab. destruct (Hval a Ha) as [Ha1 Ha2], (Hval b Hb) as [Hb1 Hb2]. rewrite Ha2, Hb2.
              destruct (Nat.ltb_spec i (ix c a)), (Nat.ltb_spec i (ix c b)); lia.
           ++ rewrite updK_ne by done. rewrite (map_ext_in _ (ix c)); [eapply (sh_sorted _ _ Hs); [exact Hcz0|congruence]|].
              intros y Hy. unfold ix. rewrite Hyn2; [done|]. intros Hy'. apply Hne. by apply (sh_K_disj _ _ Hs y).
      * by eapply gch_node.
      * intros y. rewrite elem_of_cons, (on_R _ _ _ _ Ho). split.
        -- intros [->|(cy&Hcy&Hpy)]; [eexists; split; [exact Hx2|done]|]. exists cy. split; [by apply HRx|done].
        -- intros (cy2&Hy2&Hpy). destruct (Hc2c _ _ Hy2) as (cy&Hcy&_&_&_&[[-> ->]|[(_&Hin&->)|[Hnin ->]]]).
           ++ by left.
           ++ destruct (Hf cy) as (Hfp&_). destruct (HKc _ Hin) as (cy'&?&?). congruence.
           ++ right. eauto.
      * constructor; [|apply (on_nodup _ _ _ _ Ho)]. intros (cx'&?&?)%(on_R _ _ _ _ Ho). congruence.
      * rewrite E5. psimpg. rewrite Hpo4. constructor. simpl. unfold gr at 1. rewrite Hx2. constructor.
        rewrite (on_perm _ _ _ _ Ho). f_equiv. apply reflexive_eq, map_ext_in. intros y (cy&Hcy&Hpy)%(on_R _ _ _ _ Ho).
        unfold gr. fold c. by rewrite Hcy, (HRx _ _ Hcy Hpy).
      * by rewrite E5.
      * by rewrite E5.
      * pose proof (loc_depth _ _ Hs _ _ _ Hlq) as Hdep. rewrite P_size, Hpc5.
        assert (size c2 = size c) as ->; [|lia]. rewrite <- !size_dom. f_equal. apply set_eq. intros y. rewrite !elem_of_dom. split.
        -- intros [? (?&?&_)%Hc2c]. eauto.
        -- intros [? (?&?&_)%Hcc2]. eauto.
    + (* afterwards *)
      intros [] h6 (Epr&Epf&Epn&Epv&Hsk&Hsh&Hown&Hoth&Her). rewrite Hpc5 in Hsk, Hoth, Her.
      rewrite E5, E4, E3 in Epr, Epf, Epn, Epv. psimp Epr. psimp Epf. psimp Epn. psimp Epv.
      assert (Hi6 : inv h6 (q :: H) G).
      { exists K2, (x :: R). split_and!; [done|done| |].
        - rewrite Epf, Epn, Epv. eapply skel_links; [exact Hsk|]. constructor.
          + intros y cy2 Hy2 Hmy. destruct (Hc2c _ _ Hy2) as (cy&Hcy&_&Hmy'&_). rewrite Hmy in Hmy'. symmetry in Hmy'.
            unfold K2. destruct (decide (y = q)) as [->|Hne]; [rewrite lookup_insert, updK_eq; done|].
            rewrite lookup_insert_ne, updK_ne by done. destruct (lk_mut _ _ _ _ _ Hl _ _ Hcy Hmy') as [Hfy Hcy'].
            split; [done|]. eapply circ_frame; [exact Hcy'|]. intros z Hz. unfold jn. destruct (Hfr z) as [-> ->]; [|done].
            rewrite <- HK. intros Hz'. apply Hne. by apply (sh_K_disj _ _ Hs z).
          + intros y cy2 Hy2 Hmy Hpy. destruct (Hc2c _ _ Hy2) as (cy&Hcy&_&Hmy'&_&[[-> ->]|[(_&Hin&->)|[Hnin ->]]]).
            * done.
            * destruct (Hf cy) as (Hfp&_). destruct (HKc _ Hin) as (cy'&?&?). congruence.
            * destruct (Hfr y) as [-> ->]; [by rewrite <- HK|]. by apply (lk_root _ _ _ _ _ Hl _ _ Hcy).
          + intros y cy2 Hy2 Hmy. destruct (Hc2c _ _ Hy2) as (cy&Hcy&_&Hmy'&_).
            rewrite lookup_insert_ne; [apply (lk_imm _ _ _ _ _ Hl _ _ Hcy); congruence|]. intros <-. congruence.
        - rewrite Epr. eapply skel_counts; [exact Hsk|].
          assert (Hal : forall y, is_Some (c2 !! y) <-> is_Some (c !! y)).
          { intros y. split; [intros [? (?&?&_)%Hc2c]; eauto|intros [? (?&?&_)%Hcc2]; eauto]. }
          assert (Hcnt : forall y, cnt y (q :: H) + length (K2 y) = cnt y H + length (K y)).
          { intros y. rewrite cnt_cons. unfold K2. destruct (decide (y = q)) as [->|Hne].
            - rewrite updK_eq, HK, bool_decide_eq_true_2 by done. rewrite !app_length. simpl. lia.
            - rewrite updK_ne, bool_decide_eq_false_2 by done. done. }
          destruct Hc as [H1 H2 H3 H4]. constructor.
          + intros y. rewrite Hal, Hcnt. auto.
          + intros y. rewrite Hal, Hcnt. auto.
          + done.
          + intros y [->|Hy]%elem_of_cons; apply Hal; [eauto|auto]. }
      change (wp (h_drop q) (fun _ h' => inv h' H G /\ forall y, y ∈ H -> detached c (pc (P h')) x r p i y) h6).
      eapply wp_mono; [by eapply wp_drop_same|]. intros [] h7 (Hi7&Hsub7&Hsame7). split; [done|].
      intros y Hy r' s Hly.
      (* positions *)
      assert (Hmap : if decide (r' = r) then match pos_removed p i s with inl s' => loc c2 y x s' | inr s' => loc c2 y r s' end else loc c2 y r' s).
      { clear Hy Hsame7. induction Hly as [y cy Hcy Hpy|y cy z r' s Hcy Hpy Hlz IH].
        - assert (loc c2 y y []) as Hl2 by (eapply loc_root; [by apply HRx|done]).
          case_decide as Hd; [|done]. subst y. destruct p as [|j p]; [done|]. done.
        - destruct (decide (y = x)) as [->|Hyx].
          { assert (cy = cx) as -> by congruence. assert (z = q) as -> by congruence.
            destruct (loc_fun _ _ _ _ Hlq _ _ Hlz) as [-> ->]. rewrite decide_True by done. fold i. rewrite pos_removed_child, Nat.eqb_refl.
            by eapply loc_root. }
          destruct (decide (y ∈ K q)) as [Hin|Hnin].
          { destruct (HKc _ Hin) as (cy'&?&?). assert (z = q) as -> by congruence.
            destruct (loc_fun _ _ _ _ Hlq _ _ Hlz) as [-> ->]. rewrite decide_True in IH |- * by done. rewrite pos_removed_self in IH.
            rewrite pos_removed_child.
            assert (o_idx cy <> i) as Hidx.
            { intros Heq. apply (Hixne y); [|unfold ix; rewrite Hcy, Hx; done].
              rewrite HK in Hin. apply elem_of_app in Hin as [?|[->|?]%elem_of_cons]; [apply elem_of_app; by left|done|apply elem_of_app; by right]. }
            destruct (Nat.eqb_spec (o_idx cy) i); [done|]. destruct (Hf cy) as (Hfp&_&_&_&Hfi). rewrite <- Hfi.
            eapply loc_child; [by apply HyK2|by rewrite Hfp|done]. }
          assert (Hcy2 : c2 !! y = Some cy) by (by rewrite Hyn2).
          assert (z <> q) as Hzq. { intros ->. apply Hnin, (sh_K _ _ Hs). eauto. }
          case_decide as Hd; [|by eapply loc_child]. subst r'.
          assert (s <> p) as Hsp. { intros ->. apply Hzq. exact (loc_inj_mut _ _ _ _ _ _ Hs Hlz Hlq Hmr). }
          rewrite pos_removed_snoc by done. destruct (pos_removed p i s); by eapply loc_child. }
      assert (Hmr6 : forall z, (o_mut <$> pc (P h6) !! z) = (o_mut <$> c !! z)).
      { intros z. specialize (Hsk z). destruct (c !! z) as [cz|] eqn:Ez.
        - destruct (Hcc2 _ _ Ez) as (cz2&Ez2&_&Em&_). rewrite Ez2 in Hsk. destruct (pc (P h6) !! z) as [cz6|]; [|done].
          destruct Hsk as (_&_&Em6&_). simpl. congruence.
        - destruct (c2 !! z) as [cz2|] eqn:Ez2; [destruct (Hc2c _ _ Ez2) as (?&?&_); congruence|]. by destruct (pc (P h6) !! z). }
      assert (Hs7 := Hsame7 y Hy).
      case_decide as Hd.
      * subst r'. destruct (pos_removed p i s) as [s'|s'].
        -- destruct (Hs7 _ _ (skel_loc _ _ _ _ _ Hsk Hmap)) as (Hl7&Hg7&_).
           assert (Hgx6 : gr (pc (P h6)) x = o_grn cx).
           { unfold gr. rewrite (Hoth x (c_par None cx)); [done|done|done|]. intros ->. congruence. }
           split_and!; [done|unfold gr at 2; rewrite Hx; congruence|].
           destruct (same_root_shrink _ _ _ _ _ Hsub7 Hl7) as [_ ->]. rewrite Hmr6, Hx. simpl. by rewrite Hm.
        -- destruct (Hs7 _ _ (skel_loc _ _ _ _ _ Hsk Hmap)) as (Hl7&Hg7&_). split_and!; [done| |].
           ++ rewrite Hg7, Her. assert (gr c2 r = gr c r) as -> by (unfold gr; by rewrite Hr, (HRx _ _ Hr Hrp)).
              unfold tdelete_child. rewrite Hts.
              destruct (o_grn cq) as [aq kq tq csq|] eqn:Eq; [|done]. simpl. f_equal.
              destruct g' as [ag kg tg csg|]; [|done]. simpl in *. subst kg. f_equal. unfold kids in Hgkids. simpl in Hgkids.
              rewrite <- (map_map snd erase csg), Hgkids, map_app. rewrite <- (map_map snd erase csq).
              by rewrite !fmap_take, !fmap_drop.
           ++ destruct (same_root_shrink _ _ _ _ _ Hsub7 Hl7) as [_ ->]. by rewrite Hmr6.
      * destruct (Hs7 _ _ (skel_loc _ _ _ _ _ Hsk Hmap)) as (Hl7&Hg7&_). split; [done|].
        destruct (loc_root_core _ _ _ _ Hly) as (cr'&Hr'&Hpr').
        split.
        -- rewrite Hg7. unfold gr. rewrite (Hoth r' cr' (HRx _ _ Hr' Hpr') Hpr' Hd), Hr'. done.
        -- destruct (same_root_shrink _ _ _ _ _ Hsub7 Hl7) as [_ ->]. by rewrite Hmr6.
    + intros e [-> He]. split; [done|]. rewrite Hpc5 in He. exact He.
  - (* nothing gets longer *)
    intros e [_ Hbig]. assert (gr c2 r = gr c r) as E by (unfold gr; by rewrite Hr, (HRx _ _ Hr Hrp)). rewrite E in Hbig. clear E.
    destruct (treplace_text (erase (gr c r)) p _ (erase g') Hts) as (rest&Ht1&Ht2). rewrite Ht2, !blen_app in Hbig.
    assert (Hwr : wfg (gr c r)).
    { unfold gr. rewrite Hr. eapply owned_wfg_live; [exact Ho|]. eapply live_elem, owned_root; done. }
    pose proof (wfg_bound _ Hwr) as Hfit. unfold gtext in Hfit. rewrite Ht1, !blen_app in Hfit.
    fold (gtext g') in Hbig. fold (gtext (o_grn cq)) in Hfit. rewrite gtext_kids in Hbig by done. rewrite gtext_kids in Hfit by (by eapply gch_node).
    rewrite Hgkids in Hbig. rewrite <- (take_drop_middle _ _ _ Hki) in Hfit. unfold gctext in *. rewrite !map_app, !concat_app, !blen_app in *. simpl in *.
    rewrite !blen_app in *. lia.
Qed.
