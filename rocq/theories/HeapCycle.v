(** * Attaching a tree below a node of its own: [attach_child] does not return *)
From Verif Require Export HeapAttach.

(** nodes whose ancestors are all among them; [node] is about to get the green [new] *)
Definition cyc (c : gmap id core) (C : id -> Prop) (node : id) (new : green) : Prop :=
  forall y, C y -> exists cy y' cy', c !! y = Some cy /\ gis_node (o_grn cy) = true /\ o_par cy = Some y' /\ C y' /\ c !! y' = Some cy' /\
    o_idx cy < length (kids (if decide (y' = node) then new else o_grn cy')).

(** no text anywhere *)
Definition textless (L : list green) : Prop := forall g, live L g -> gtext g = [].
Lemma textless_kids (l : list green) : (forall g, g ∈ l -> gtext g = []) -> gctext l = [].
Proof.
  induction l as [|g l IH]; intros H; [done|]. unfold gctext in *. simpl. rewrite (H g) by left. apply IH. intros x Hx. apply H. by right.
Qed.
Lemma textless_add L g o' : textless L -> gis_node g = true -> (forall x, x ∈ kids g -> live L x) -> (forall x, x ∈ o' -> x ∈ L) -> textless (g :: o').
Proof.
  intros H Hn Hk Ho x (y&p&Hy&Hx). apply elem_of_cons in Hy as [->|Hy]; [|apply H; exists y, p; split; [by apply Ho|done]].
  destruct p as [|i p].
  - injection Hx as <-. rewrite gtext_kids by done. apply textless_kids. intros u Hu. by apply H, Hk.
  - apply H. rewrite gsub_kids in Hx. destruct (kids g !! i) as [u|] eqn:Eu; [|done]. simpl in Hx. eapply live_sub; [apply (Hk u)|done].
    by eapply elem_of_list_lookup_2.
Qed.

(** whatever the bound on the number of rounds *)
Lemma wpx_respine_cyc env (C : id -> Prop) (Z : Prop) fuel : forall node new h,
  henv_ok env -> (Z -> textless (po (P h))) -> C node -> cyc (pc (P h)) C node new -> gis_node new = true -> new ∈ po (P h) ->
  Forall wfg (po (P h)) -> cohl (po (P h)) -> (forall y cy, C y -> pc (P h) !! y = Some cy -> live (po (P h)) (o_grn cy)) ->
  wpx (h_respine_loop env fuel node new) (fun _ _ => False) (fun e => e = Diverge \/ e = Panic /\ ~ Z) h.
Proof.
  induction fuel as [|fuel IH]; intros node new h Henv HZ HCn Hcyc Hnew Hin Hwf Hco Hlive; [by left|].
  cbn [h_respine_loop]. destruct (Hcyc node HCn) as (cn&q&cq&Hn&Hnode&Hp&HCq&Hq&Hidx). set (c := pc (P h)) in *.
  apply wpx_wp_bind. eapply wp_get; [exact Hn|]. intros n En _ _ _ _.
  assert (n_grn n = o_grn cn) as -> by (by rewrite <- En). assert (n_par n = Some q) as -> by (by rewrite <- Hp, <- En).
  assert (n_idx n = o_idx cn) as -> by (by rewrite <- En). clear En.
  apply wpx_wp_bind, wp_assert; [done|].
  apply wpx_wp_bind. eapply wp_set_grn; [exact Hn|]. intros h1 E1. fold c in E1.
  set (c1 := <[node:=c_grn new cn]> c) in *.
  set (pg := if decide (q = node) then new else o_grn cq) in *.
  assert (Hq1 : exists cq1, c1 !! q = Some cq1 /\ o_grn cq1 = pg).
  { unfold c1, pg. destruct (decide (q = node)) as [->|Hne]; [rewrite lookup_insert; eauto|rewrite lookup_insert_ne; eauto]. }
  destruct Hq1 as (cq1&Hq1&Epg).
  assert (Hlnew : live (po (P h)) new) by (by apply live_elem).
  assert (Hlpg : live (po (P h)) pg). { unfold pg. destruct (decide (q = node)); [done|by apply (Hlive q)]. }
  assert (Hnpg : gis_node pg = true).
  { unfold pg. destruct (decide (q = node)); [done|]. destruct (Hcyc q HCq) as (cq'&_&_&Hq'&Hnq&_). assert (cq' = cq) as -> by congruence. done. }
  assert (Hwl : forall g, live (po (P h)) g -> wfg g).
  { intros g (x&p&Hx&Hg). eapply wfg_gsub; [|exact Hg]. rewrite Forall_forall in Hwf. by apply Hwf. }
  assert (Hpo1 : po (P h1) = po (P h)) by (by rewrite E1). assert (Hpc1 : pc (P h1) = c1) by (by rewrite E1).
  apply wpx_wp_bind. eapply (wp_green_of q cq1); [by rewrite Hpc1|by rewrite Hpo1, Epg|]. rewrite Epg.
  apply wpx_wp_bind, wp_assert; [done|]. apply wpx_bind.
  eapply (wpx_green_build env _ (Some new)
      (fun g => gis_node g = true /\ kids g = <[o_idx cn := new]> (kids pg)) (fun e => e = Panic /\ ~ Z)); rewrite ?Hpo1; try done.
  - intros a. destruct (lookup_lt_is_Some_2 _ _ Hidx) as [old Hold]. destruct (kids_gch _ _ _ Hold) as [rel Hch].
    pose proof (cursor_at_child pg [] (CRoot pg) (o_idx cn) _ eq_refl Hch) as Hcc.
    pose proof (replace_step pg a [] (o_idx cn) _ (CRoot pg) new (Hwl _ Hlpg) (Hwl _ Hlnew) eq_refl Hcc) as Hst. simpl in Hst.
    destruct (green_replace_child Checked a pg (o_idx cn) new) as [g|e] eqn:Eg.
    2:{ destruct Hst as [-> Hbig]. split; [done|]. intros Hz. specialize (HZ Hz).
        assert (Ho : tsub (erase pg) [o_idx cn] = Some (erase old)) by (by rewrite erase_gsub, gsub_kids, Hold).
        destruct (treplace_text _ _ _ (erase new) Ho) as (r&Ht&Ht'). pose proof (HZ _ Hlpg) as H1. pose proof (HZ _ Hlnew) as H2. unfold gtext in H1, H2.
        rewrite H1 in Ht. rewrite H2 in Ht'. symmetry in Ht. apply app_eq_nil in Ht as [Hb [_ Hr]%app_eq_nil].
        change (u32_max < blen (ttext (treplace (erase pg) [o_idx cn] (erase new))))%N in Hbig. rewrite Ht', Hb, Hr in Hbig. done. }
    destruct Hst as (Hwg&Hk&He&Hkids). apply green_new_children in Eg as (_&Hisn&_&Ha).
    split_and!; try done. intros x Hx. rewrite Hkids in Hx. apply elem_of_list_lookup in Hx as [j Hj].
    destruct (decide (j = o_idx cn)) as [->|Hne].
    + rewrite list_lookup_insert in Hj by done. by injection Hj as <-.
    + rewrite list_lookup_insert_ne in Hj by done. eapply live_kid; [exact Hlpg|]. by eapply elem_of_list_lookup_2.
  - intros g h2 o' (Hgn&Hgkids) Hwg Hd E2 Hwf2 Hco2. simpl in Hd.
    assert (Hpc2 : pc (P h2) = c1) by (by rewrite E2). assert (Hpo2 : po (P h2) = g :: o') by (by rewrite E2).
    assert (Hlen : length (kids g) = length (kids pg)) by (by rewrite Hgkids, insert_length).
    assert (Hlg : forall x, live (po (P h)) x -> live (g :: o') x).
    { intros x (y&p&Hy&Hg). rewrite Hd in Hy. apply elem_of_cons in Hy as [->|Hy]; [|exists y, p; split; [by right|done]].
      assert (live (g :: o') new) as Hln.
      { eapply live_kid; [apply live_elem; left|]. rewrite Hgkids. apply elem_of_list_lookup. exists (o_idx cn). by apply list_lookup_insert. }
      by eapply live_sub. }
    eapply (wpx_mono _ _ _ _ _ _ (IH q g h2 Henv _ HCq _ Hgn _ _ _ _)); [done|by intros e He]. Unshelve.
    + intros Hz. rewrite Hpo2. apply (textless_add (po (P h))); [by apply HZ|done| |].
      * intros x Hx. rewrite Hgkids in Hx. apply elem_of_list_lookup in Hx as [j Hj]. destruct (decide (j = o_idx cn)) as [->|Hne].
        -- rewrite list_lookup_insert in Hj by done. by injection Hj as <-.
        -- rewrite list_lookup_insert_ne in Hj by done. eapply live_kid; [exact Hlpg|]. by eapply elem_of_list_lookup_2.
      * intros x Hx. rewrite Hd. by right.
    + rewrite Hpc2. intros y HCy. destruct (Hcyc y HCy) as (cy&y'&cy'&Hy&Hny&Hpy&HCy'&Hy'&Hiy).
      assert (Hget : forall u cu, c !! u = Some cu -> exists cu1, c1 !! u = Some cu1 /\ o_par cu1 = o_par cu /\ o_idx cu1 = o_idx cu /\
         o_grn cu1 = if decide (u = node) then new else o_grn cu).
      { intros u cu Hu. unfold c1. destruct (decide (u = node)) as [->|Hne].
        - rewrite lookup_insert. assert (cu = cn) as -> by congruence. eauto.
        - rewrite lookup_insert_ne by done. eauto. }
      destruct (Hget _ _ Hy) as (cy1&Hy1&Ep1&Ei1&Eg1). destruct (Hget _ _ Hy') as (cy'1&Hy'1&_&_&Eg'1).
      exists cy1, y', cy'1. split_and!; [done| |congruence|done|done|].
      * rewrite Eg1. by destruct (decide (y = node)).
      * rewrite Ei1, Eg'1. destruct (decide (y' = q)) as [->|Hne]; [|done]. rewrite Hlen. unfold pg.
        assert (cy' = cq) as -> by congruence. done.
    + rewrite Hpo2. left.
    + by rewrite Hpo2.
    + by rewrite Hpo2.
    + rewrite Hpc2, Hpo2. intros y cy HCy Hy. apply Hlg. unfold c1 in Hy. destruct (decide (y = node)) as [->|Hne].
      * rewrite lookup_insert in Hy. injection Hy as <-. done.
      * rewrite lookup_insert_ne in Hy by done. by apply (Hlive y).
  - intros e He. by right.
Qed.

Lemma gsize_tok g : gis_node g = false -> gsize g = 1.
Proof. by destruct g. Qed.
Lemma gsize_pos g : 0 < gsize g.
Proof. destruct g; simpl; lia. Qed.

Lemma wpx_attach_cyclic env (Z : Prop) (resp : id -> green -> hm unit) q i x h H G cq cx p :
  henv_ok env -> (forall y g h, exists fuel, resp y g h = h_respine_loop env fuel y g h) -> (Z -> textless (po (P h)) /\ i <= length (kids (o_grn cq))) -> inv h H G -> pc (P h) !! q = Some cq -> pc (P h) !! x = Some cx -> o_mut cq = true -> o_mut cx = true ->
  o_par cx = None -> gis_node (o_grn cq) = true -> loc (pc (P h)) q x p ->
  wpx (h_attach_with env resp q i x) (fun _ _ => False) (fun e => e = Diverge \/ e = Panic /\ ~ Z) h.
Proof.
  intros Henv Hresp HZ Hi Hq Hx Hmq Hm Hp Hnode Hlq. pose proof Hi as (K&R&Hs&Ho&Hl&Hc). set (c := pc (P h)) in *.
  pose proof (sh_nodup _ _ Hs q) as Hnd.
  destruct (lk_mut _ _ _ _ _ Hl _ _ Hq Hmq) as [Hfq Hcq].
  assert (HKc : forall y, y ∈ K q -> exists cy, c !! y = Some cy /\ o_par cy = Some q) by (intros y; apply (sh_K _ _ Hs)).
  assert (HxK : forall z, x ∉ K z). { intros z (cx'&?&?)%(sh_K _ _ Hs). congruence. }
  assert (HKsize : forall y cy, y ∈ K q -> c !! y = Some cy -> gsize (o_grn cy) < gsize (o_grn cq)).
  { intros y cy Hy Hcy. destruct (HKc y Hy) as (cy'&Hcy'&Hpy). assert (cy' = cy) as -> by congruence. by eapply (sh_gsize _ _ Hs). }
  assert (Hpos : forall z cz n, c !! z = Some cz -> pr (P h) !! z = Some n -> (0 <? n) = true).
  { intros z cz n Hz Hn. rewrite (ct_rc _ _ _ _ _ Hc z ltac:(eauto)) in Hn. injection Hn as <-. apply Nat.ltb_lt.
    destruct (cnt z H + length (K z)) eqn:E; [|lia]. by pose proof (ct_live _ _ _ _ _ Hc z ltac:(eauto) E). }
  apply wpx_wp_bind. eapply wp_get; [exact Hq|]. intros nq Enq Hrcq _ _ _.
  apply wpx_wp_bind. eapply wp_get; [exact Hx|]. intros nx Enx Hrcx _ _ _.
  apply wpx_wp_bind, wp_assert.
  { rewrite <- Enq in Hmq. rewrite <- Enx in Hm, Hp. simpl in *. rewrite Hmq, Hm. by case_bool_decide. }
  apply wpx_wp_bind, wp_assert. { by rewrite (Hpos _ _ _ Hq Hrcq), (Hpos _ _ _ Hx Hrcx). }
  clear nq Enq Hrcq nx Enx Hrcx.
  apply wpx_wp_bind. eapply wp_set_idx; [exact Hx|]. intros h1 E1. fold c in E1.
  apply wpx_wp_bind. eapply wp_set_par; [rewrite E1; apply lookup_insert|]. intros h2 E2. rewrite E1 in E2. psimp E2. rewrite insert_insert in E2.
  set (cx1 := c_par (Some q) (c_idx i cx)) in *. set (c1 := <[x:=cx1]> c) in *.
  assert (Hq1 : exists cq1, c1 !! q = Some cq1 /\ o_grn cq1 = o_grn cq).
  { unfold c1. destruct (decide (q = x)) as [->|Hne]; [rewrite lookup_insert|rewrite lookup_insert_ne by done; eauto].
    exists cx1. split; [done|]. assert (cq = cx) as -> by congruence. done. }
  destruct Hq1 as (cq1&Hq1&Egq1).
  apply wpx_wp_bind. eapply (wp_inc q cq1); [by rewrite E2|]. intros h3 nrc Hnrc E3. rewrite E2 in Hnrc, E3. psimp E3. psimp Hnrc.
  apply wpx_wp_bind. eapply (wp_get q _ _ cq1); [by rewrite E3|]. intros nq Enq _ Hfst _ _.
  assert (n_first nq = head (K q)) as -> by (rewrite E3 in Hfst; psimp Hfst; congruence). clear nq Enq Hfst.
  set (f := adjc i (DAdd 1)) in *.
  apply wpx_wp_bind.
  eapply (wp_mono _ (fun _ h' => exists c2, P h' = set_pc (P h3) c2 /\ forall y, c2 !! y = if decide (y ∈ K q) then f <$> c1 !! y else c1 !! y)).
  { destruct (K q) as [|y0 l0] eqn:EK.
    - apply wp_skip. exists c1. split; [by rewrite E3|]. intros y. by rewrite decide_False by apply not_elem_of_nil.
    - eapply (wp_adjust y0 i (DAdd 1) [] l0); rewrite ?E3; psimpg; try done.
      + intros y Hy. destruct (HKc y Hy) as (cy&Hcy&_). exists cy. split; [|done]. unfold c1. rewrite lookup_insert_ne; [done|].
        intros <-. apply (HxK q). by rewrite EK.
      + intros h' c' E' Hc'. exists c'. split; [by rewrite E'|done]. }
  intros [] h4 (c2&E4&Hc2). rewrite E3 in E4. psimp E4.
  assert (Hx2 : c2 !! x = Some cx1).
  { rewrite Hc2, decide_False by done. unfold c1. by rewrite lookup_insert. }
  assert (HyK2 : forall y cy, y ∈ K q -> c !! y = Some cy -> c2 !! y = Some (f cy)).
  { intros y cy Hy Hcy. rewrite Hc2, decide_True by done. unfold c1. rewrite lookup_insert_ne, Hcy; [done|]. intros <-. by apply (HxK q). }
  assert (Hyn2 : forall y, y <> x -> y ∉ K q -> c2 !! y = c !! y).
  { intros y Hne Hy. rewrite Hc2, decide_False by done. unfold c1. by rewrite lookup_insert_ne. }
  assert (Hf : forall cy, o_grn (f cy) = o_grn cy /\ o_idx (f cy) = if i <=? o_idx cy then S (o_idx cy) else o_idx cy).
  { intros cy. unfold f, adjc, dl. destruct (Nat.leb_spec i (o_idx cy)); simpl; [|done]. split_and!; try done. lia. }
  assert (HqK : q ∉ K q). { intros Hin. pose proof (HKsize _ _ Hin Hq). lia. }
  assert (Hq2 : exists cq2, c2 !! q = Some cq2 /\ o_grn cq2 = o_grn cq).
  { destruct (decide (q = x)) as [->|Hne]; [|rewrite Hyn2 by done; eauto]. exists cx1. split; [done|]. assert (cq = cx) as -> by congruence. done. }
  destruct Hq2 as (cq2&Hq2&Egq2).
  assert (Hni : forall a, a ∈ K q -> ix c2 a <> i).
  { intros a Ha. destruct (HKc a Ha) as (ca&Hca&_). unfold ix. rewrite (HyK2 a ca) by done. destruct (Hf ca) as (_&->).
    destruct (Nat.leb_spec i (o_idx ca)); lia. }
  assert (Hal2 : forall y, y ∈ x :: K q -> is_Some (c2 !! y)).
  { intros y [->|Hy]%elem_of_cons; [eauto|]. destruct (HKc y Hy) as (cy&Hcy&_). rewrite (HyK2 _ _ Hy Hcy). eauto. }
  apply wpx_wp_bind. eapply (wp_link q i (K q)); rewrite ?E4; psimpg.
  { eauto. } { intros y Hy. apply Hal2. by right. } { done. } { done. } { done. }
  intros sr Hans. destruct (link_ans_added _ _ x _ _ _ Hans) as [[z ->]|(l'&Hadd)].
  { exfalso. destruct (link_ans_in _ _ _ _ _ Hans) as [Hz1 Hz2]. by apply (Hni z). }
  apply wpx_wp_bind.
  assert (wp (match sr with AlreadyInSll _ => hpanic | _ => h_add_to_sll sr x end)
    (fun _ h5 => pc (P h5) = c2 /\ po (P h5) = po (P h)) h4) as Hsll.
  { assert (wp (h_add_to_sll sr x) (fun _ h5 => pc (P h5) = c2 /\ po (P h5) = po (P h)) h4) as Hw.
    { eapply (wp_add_to_sll _ q x i (K q)); [exact Hadd|..]; rewrite ?E4; psimpg; try done.
      - constructor; [apply HxK|done].
      - intros h5 n' q' E5 ? ?. by rewrite E5. }
    destruct Hadd; exact Hw. }
  eapply wp_mono; [exact Hsll|]. clear Hsll. intros [] h5 (Hpc5&Hpo5).
  assert (Hlx : o_grn cx ∈ po (P h)) by (by eapply owned_root).
  assert (Hlq' : live (po (P h)) (o_grn cq)) by (by eapply owned_live).
  apply wpx_wp_bind. eapply (wp_green_of q cq2); [by rewrite Hpc5|by rewrite Hpo5, Egq2|]. rewrite Egq2.
  apply wpx_wp_bind, wp_assert; [done|].
  apply wpx_wp_bind. eapply (wp_get x _ _ cx1); [by rewrite Hpc5|]. intros n En _ _ _ _.
  assert (n_grn n = o_grn cx) as -> by (rewrite <- (eq_refl : o_grn cx1 = o_grn cx), <- En; done). clear n En.
  pose proof (owned_wfg_live _ _ _ _ _ Ho Hlq') as Hwq.
  assert (Hwx : wfg (o_grn cx)) by (eapply owned_wfg_live; [exact Ho|by apply live_elem]).
  apply wpx_bind.
  eapply (wpx_green_build env _ (Some (o_grn cx))
    (fun g => i <= length (kids (o_grn cq)) /\ gis_node g = true /\
              kids g = take i (kids (o_grn cq)) ++ o_grn cx :: drop i (kids (o_grn cq)))
    (fun e => e = Panic /\ ~ Z)); try done.
  { rewrite Hpo5. apply (on_wf _ _ _ _ Ho). } { rewrite Hpo5. apply (on_coh _ _ _ _ Ho). } { by rewrite Hpo5. }
  { intros a. unfold green_insert_child.
    pose proof (splice_exact a (o_grn cq) (Included i) (Excluded i) [o_grn cx] Hwq ltac:(by repeat constructor)) as Hsp. simpl in Hsp.
    destruct (green_splice_children Checked a (o_grn cq) (Included i) (Excluded i) [o_grn cx]) as [g|e] eqn:Eg.
    - destruct Hsp as (Hle&Hk&Hn&Hkids).
      split_and!; try done.
      + unfold green_splice_children in Eg. apply res_bind_ok in Eg as (?&_&Eg). by apply green_new_children in Eg as (_&_&_&?).
      + apply built_wfg. eapply built_splice; [| |exact Eg]; [by apply wfg_built|constructor; [by apply wfg_built|constructor]].
      + intros y Hy. rewrite Hpo5. rewrite Hkids in Hy. apply elem_of_app in Hy as [Hy|[->|Hy]%elem_of_cons].
        * eapply live_kid; [exact Hlq'|by eapply elem_of_take'].
        * by apply live_elem.
        * eapply live_kid; [exact Hlq'|by eapply elem_of_drop].
      + lia.
    - destruct Hsp as [-> Hbad]. split; [done|]. intros Hz. destruct (HZ Hz) as [Htl Hi']. destruct Hbad as [Hbad|Hbad]; [lia|].
      rewrite textless_kids in Hbad; [done|]. intros y Hy. apply Htl. apply elem_of_app in Hy as [Hy|[->|Hy]%elem_of_cons].
      + eapply live_kid; [exact Hlq'|by eapply elem_of_take'].
      + by apply live_elem.
      + eapply live_kid; [exact Hlq'|by eapply elem_of_drop]. }
  2:{ intros e He. by right. }
  intros g' h6 o' (Hile&Hgn&Hgkids) Hwg Hd E6 Hwf6 Hco6. simpl in Hd. rewrite Hpo5 in Hd.
  assert (Hpc6 : pc (P h6) = c2) by (by rewrite E6, <- Hpc5). assert (Hpo6 : po (P h6) = g' :: o') by (by rewrite E6).
  assert (Hlen : length (kids g') = S (length (kids (o_grn cq)))).
  { rewrite Hgkids, app_length. simpl. rewrite take_length_le, drop_length by done. lia. }
  set (C := fun y => y = q \/ exists s cy, loc c y x s /\ c !! y = Some cy /\ gsize (o_grn cq) < gsize (o_grn cy)).
  assert (HCc : forall y, C y -> exists s cy, loc c y x s /\ c !! y = Some cy /\ gsize (o_grn cq) <= gsize (o_grn cy) /\ gis_node (o_grn cy) = true /\ y ∉ K q).
  { intros y [->|(s&cy&Hly&Hy&Hsz)].
    - exists p, cq. done.
    - exists s, cy. split_and!; try done; [lia| |].
      + destruct (gis_node (o_grn cy)) eqn:E; [done|]. apply gsize_tok in E. pose proof (gsize_pos (o_grn cq)). lia.
      + intros Hin. pose proof (HKsize _ _ Hin Hy). lia. }
  assert (Hsame2 : forall y cy, C y -> c !! y = Some cy -> exists cy2, c2 !! y = Some cy2 /\ o_grn cy2 = o_grn cy).
  { intros y cy HCy Hy. destruct (decide (y = x)) as [->|Hne]; [assert (cy = cx) as -> by congruence; by exists cx1|].
    destruct (HCc y HCy) as (_&_&_&_&_&_&Hnin). rewrite Hyn2 by done. eauto. }
  destruct (Hresp q g' h6) as [fuel Efuel]. unfold wpx. rewrite Efuel. eapply (wpx_respine_cyc env C Z fuel); try done.
  - intros Hz. rewrite Hpo6. destruct (HZ Hz) as [Htl _]. apply (textless_add (po (P h))); [done|done| |].
    + intros y Hy. rewrite Hgkids in Hy. apply elem_of_app in Hy as [Hy|[->|Hy]%elem_of_cons].
      * eapply live_kid; [exact Hlq'|by eapply elem_of_take'].
      * by apply live_elem.
      * eapply live_kid; [exact Hlq'|by eapply elem_of_drop].
    + intros y Hy. rewrite Hd. by right.
  - by left.
  - rewrite Hpc6. intros y HCy. destruct (HCc y HCy) as (s&cy&Hly&Hy&Hsz&Hny&Hnin). destruct (decide (y = x)) as [->|Hne].
    + assert (cy = cx) as -> by congruence. exists cx1, q, cq2. rewrite decide_True by done. split_and!; try done; [by left|]. simpl. lia.
    + destruct (o_par cy) as [y'|] eqn:Hpy; [|by destruct (loc_inv_root _ _ _ _ _ Hly Hy Hpy)].
      destruct (loc_inv_child _ _ _ _ _ _ Hly Hy Hpy) as (s'&_&Hly'). destruct (sh_child _ _ Hs _ _ _ Hy Hpy) as (cy'&rel&Hy'&_&Hch&_).
      pose proof (sh_gsize _ _ Hs _ _ _ _ Hy Hpy Hy') as Hsz'.
      assert (HCy' : C y') by (right; exists s', cy'; split_and!; [done|done|lia]).
      destruct (Hsame2 _ _ HCy' Hy') as (cy'2&Hy'2&Eg'). exists cy, y', cy'2. split_and!; try done; [by rewrite Hyn2|].
      apply gch_kids, lookup_lt_Some in Hch. destruct (decide (y' = q)) as [->|_]; [|by rewrite Eg'].
      assert (cy' = cq) as -> by congruence. lia.
  - rewrite Hpo6. left.
  - by rewrite Hpo6.
  - by rewrite Hpo6.
  - rewrite Hpc6, Hpo6. intros y cy2 HCy Hy2. destruct (HCc y HCy) as (s&cy&Hly&Hy&_). destruct (Hsame2 _ _ HCy Hy) as (cy2'&Hy2'&Eg).
    assert (cy2' = cy2) as -> by congruence. rewrite Eg. destruct (owned_live _ _ _ _ _ _ _ Hs Ho Hy) as (u&pp&Hu&Hg).
    rewrite Hd in Hu. apply elem_of_cons in Hu as [->|Hu]; [|exists u, pp; split; [by right|done]].
    eapply live_sub; [|exact Hg]. eapply live_kid; [apply live_elem; left|]. rewrite Hgkids. apply elem_of_app. right. left.
Qed.
