(** * Attaching a tree below a node *)
From Verif Require Export HeapMut.

(** ** [attach_child] *)
(** what a handle shows after [x] has become child [i] of the node at [p] of tree [r] *)
Definition attached (c c' : gmap id core) (x r : id) (p : pos) (i : nat) (y : id) : Prop :=
  forall r' s, loc c y r' s ->
    if decide (r' = r \/ r' = x) then
      loc c' y r (if decide (r' = r) then pos_inserted p i s else p ++ i :: s) /\
      erase (gr c' r) = tinsert_child (erase (gr c r)) p i (erase (gr c x)) /\ (o_mut <$> c' !! r) = Some true
    else loc c' y r' s /\ same_root c c' r'.

Lemma link_ans_in c p key l z : link_ans c p key l (AlreadyInSll z) -> z ∈ l /\ ix c z = key.
Proof.
  intros Ha. inversion Ha as [| | |l1 z' l2 Hz]; subst. split; [|done]. apply elem_of_app. right. left.
Qed.
Lemma wpx_attach_data env q i x h H G cq cx r p :
  henv_ok env -> inv h H G -> pc (P h) !! q = Some cq -> pc (P h) !! x = Some cx -> o_mut cq = true -> o_mut cx = true ->
  o_par cx = None -> gis_node (o_grn cq) = true -> loc (pc (P h)) q r p -> r <> x ->
  wpx (h_attach_data env q i x)
     (fun _ h' => inv h' H G /\ i <= length (kids (o_grn cq)) /\
        (blen (ttext (tinsert_child (erase (gr (pc (P h)) r)) p i (erase (o_grn cx)))) <= u32_max)%N /\
        forall y, y ∈ H -> attached (pc (P h)) (pc (P h')) x r p i y)
     (fun e => e = Panic /\ (length (kids (o_grn cq)) < i \/
        (u32_max < blen (ttext (tinsert_child (erase (gr (pc (P h)) r)) p i (erase (o_grn cx)))))%N)) h.
Proof.
  intros Henv Hi Hq Hx Hmq Hm Hp Hnode Hlq Hrx. pose proof Hi as (K&R&Hs&Ho&Hl&Hc). set (c := pc (P h)) in *.
  pose proof (sh_nodup _ _ Hs q) as Hnd.
  pose proof (sh_sorted _ _ Hs _ _ Hq Hmq) as Hsort.
  destruct (lk_mut _ _ _ _ _ Hl _ _ Hq Hmq) as [Hfq Hcq].
  assert (Hqx : q <> x). { intros ->. destruct (loc_inv_root _ _ _ _ _ Hlq Hx Hp). done. }
  assert (HKc : forall y, y ∈ K q -> exists cy, c !! y = Some cy /\ o_par cy = Some q) by (intros y; apply (sh_K _ _ Hs)).
  assert (HqK : q ∉ K q).
  { intros (cq'&Hq'&Hpq)%HKc. pose proof (sh_gsize _ _ Hs _ _ _ _ Hq' Hpq Hq'). lia. }
  assert (HxK : forall z, x ∉ K z). { intros z (cx'&?&?)%(sh_K _ _ Hs). congruence. }
  assert (Hmr : (o_mut <$> c !! r) = Some true).
  { destruct (loc_gsub _ _ Hs _ _ _ Hlq) as (cr&cq'&Hr&_&Hq'&_&Hmm). rewrite Hr. simpl. congruence. }
  assert (Hpos : forall z cz n, c !! z = Some cz -> pr (P h) !! z = Some n -> (0 <? n) = true).
  { intros z cz n Hz Hn. rewrite (ct_rc _ _ _ _ _ Hc z ltac:(eauto)) in Hn. injection Hn as <-. apply Nat.ltb_lt.
    destruct (cnt z H + length (K z)) eqn:E; [|lia]. by pose proof (ct_live _ _ _ _ _ Hc z ltac:(eauto) E). }
  apply wpx_wp_bind. eapply wp_get; [exact Hq|]. intros nq Enq Hrcq _ _ _.
  apply wpx_wp_bind. eapply wp_get; [exact Hx|]. intros nx Enx Hrcx _ _ _.
  apply wpx_wp_bind, wp_assert.
  { rewrite <- Enq in Hmq. rewrite <- Enx in Hm, Hp. simpl in *. rewrite Hmq, Hm. by case_bool_decide. }
  apply wpx_wp_bind, wp_assert. { by rewrite (Hpos _ _ _ Hq Hrcq), (Hpos _ _ _ Hx Hrcx). }
  clear nq Enq Hrcq nx Enx Hrcx.
  apply wpx_wp_bind. eapply wp_set_idx; [exact Hx|]. intros h1 E1. fold c in E1.
  apply wpx_wp_bind. eapply wp_set_par; [rewrite E1; apply lookup_insert|]. intros h2 E2. rewrite E1 in E2. psimp E2. rewrite insert_insert in E2.
  set (cx1 := c_par (Some q) (c_idx i cx)) in *. set (c1 := <[x:=cx1]> c) in *.
  assert (Hq1 : c1 !! q = Some cq) by (unfold c1; by rewrite lookup_insert_ne).
  apply wpx_wp_bind. eapply (wp_inc q cq); [by rewrite E2|]. intros h3 nrc Hnrc E3. rewrite E2 in Hnrc, E3. psimp E3. psimp Hnrc.
  apply wpx_wp_bind. eapply (wp_get q _ _ cq); [by rewrite E3|]. intros nq Enq _ Hfst _ _.
  assert (n_first nq = head (K q)) as -> by (rewrite E3 in Hfst; psimp Hfst; congruence). clear nq Enq Hfst.
  set (f := adjc i (DAdd 1)) in *.
  apply wpx_wp_bind.
  eapply (wp_mono _ (fun _ h' => exists c2, P h' = set_pc (P h3) c2 /\ forall y, c2 !! y = if decide (y ∈ K q) then f <$> c1 !! y else c1 !! y)).
  { destruct (K q) as [|y0 l0] eqn:EK.
    - apply wp_skip. exists c1. split; [by rewrite E3|]. intros y. by rewrite decide_False by apply not_elem_of_nil.
    - eapply (wp_adjust y0 i (DAdd 1) [] l0); rewrite ?E3; psimpg; try done.
      + intros y Hy. destruct (HKc y Hy) as (cy&Hcy&_). exists cy. split; [|done]. unfold c1. rewrite lookup_insert_ne; [done|].
        intros <-. apply (HxK q). by rewrite EK.
      + intros h' c' E' Hc'. exists c'. split; [by rewrite E'|done]. }
  intros [] h4 (c2&E4&Hc2). rewrite E3 in E4. psimp E4.
  (* the cores now *)
  assert (Hx2 : c2 !! x = Some cx1).
  { rewrite Hc2, decide_False by done. unfold c1. by rewrite lookup_insert. }
  assert (HyK2 : forall y cy, y ∈ K q -> c !! y = Some cy -> c2 !! y = Some (f cy)).
  { intros y cy Hy Hcy. rewrite Hc2, decide_True by done. unfold c1. rewrite lookup_insert_ne, Hcy; [done|]. intros <-. by apply (HxK q). }
  assert (Hyn2 : forall y, y <> x -> y ∉ K q -> c2 !! y = c !! y).
  { intros y Hne Hy. rewrite Hc2, decide_False by done. unfold c1. by rewrite lookup_insert_ne. }
  assert (Hf : forall cy, o_par (f cy) = o_par cy /\ o_grn (f cy) = o_grn cy /\ o_mut (f cy) = o_mut cy /\ o_off (f cy) = o_off cy /\
     o_idx (f cy) = if i <=? o_idx cy then S (o_idx cy) else o_idx cy).
  { intros cy. unfold f, adjc, dl. destruct (Nat.leb_spec i (o_idx cy)); simpl; [|done]. split_and!; try done. lia. }
  assert (Hc2c : forall y cy2, c2 !! y = Some cy2 -> exists cy, c !! y = Some cy /\ o_grn cy2 = o_grn cy /\ o_mut cy2 = o_mut cy /\ o_off cy2 = o_off cy /\
     (y = x /\ cy2 = cx1 \/ y <> x /\ y ∈ K q /\ cy2 = f cy \/ y <> x /\ y ∉ K q /\ cy2 = cy)).
  { intros y cy2 Hy2. destruct (decide (y = x)) as [->|Hne].
    - rewrite Hx2 in Hy2. injection Hy2 as <-. exists cx. split_and!; try done. by left.
    - destruct (decide (y ∈ K q)) as [Hin|Hnin].
      + destruct (HKc y Hin) as (cy&Hcy&_). rewrite (HyK2 _ _ Hin Hcy) in Hy2. injection Hy2 as <-. exists cy.
        destruct (Hf cy) as (_&?&?&?&_). split_and!; try done. right. by left.
      + rewrite (Hyn2 _ Hne Hnin) in Hy2. exists cy2. split_and!; try done. right. by right. }
  assert (Hcc2 : forall y cy, c !! y = Some cy -> exists cy2, c2 !! y = Some cy2 /\ o_grn cy2 = o_grn cy /\ o_mut cy2 = o_mut cy /\ o_off cy2 = o_off cy).
  { intros y cy Hcy. destruct (decide (y = x)) as [->|Hne]; [assert (cy = cx) as -> by congruence; eexists; split; [exact Hx2|done]|].
    destruct (decide (y ∈ K q)) as [Hin|Hnin].
    - exists (f cy). destruct (Hf cy) as (_&?&?&?&_). split_and!; auto.
    - exists cy. rewrite Hyn2 by done. done. }
  assert (Hq2 : c2 !! q = Some cq) by (by rewrite Hyn2).
  assert (HRx : forall y cy, y <> x -> c !! y = Some cy -> o_par cy = None -> c2 !! y = Some cy).
  { intros y cy Hne Hy Hpy. rewrite Hyn2; [done|done|]. intros (?&?&?)%HKc. congruence. }
  assert (Hval : forall a, a ∈ K q -> ix c2 a = if i <=? ix c a then S (ix c a) else ix c a).
  { intros a Ha. destruct (HKc a Ha) as (ca&Hca&_). unfold ix. rewrite (HyK2 a ca), Hca by done. by destruct (Hf ca) as (_&_&_&_&->). }
  assert (Hsort2 : StronglySorted lt (map (ix c2) (K q))).
  { eapply (sorted_map_mono (ix c)); [|exact Hsort]. intros a b Ha Hb Hab. rewrite (Hval a Ha), (Hval b Hb).
    destruct (Nat.leb_spec i (ix c a)), (Nat.leb_spec i (ix c b)); lia. }
  assert (Hni : forall a, a ∈ K q -> ix c2 a <> i). { intros a Ha. rewrite (Hval a Ha). destruct (Nat.leb_spec i (ix c a)); lia. }
  assert (Hal2 : forall y, y ∈ x :: K q -> is_Some (c2 !! y)).
  { intros y [->|Hy]%elem_of_cons; [eauto|]. destruct (HKc y Hy) as (cy&Hcy&_). rewrite (HyK2 _ _ Hy Hcy). eauto. }
  (* link *)
  apply wpx_wp_bind. eapply (wp_link q i (K q)); rewrite ?E4; psimpg.
  { eauto. } { intros y Hy. apply Hal2. by right. } { done. } { done. } { done. }
  intros sr Hans. destruct (link_ans_added _ _ x _ _ _ Hans) as [[z ->]|(l'&Hadd)].
  { exfalso. destruct (link_ans_in _ _ _ _ _ Hans) as [Hz1 Hz2]. by apply (Hni z). }
  apply wpx_wp_bind.
  assert (wp (match sr with AlreadyInSll _ => hpanic | _ => h_add_to_sll sr x end)
    (fun _ h5 => exists n' q', P h5 = PM c2 (<[q:=S nrc]> (pr (P h))) (<[q:=head l']> (pf (P h))) n' q' (po (P h)) (pk (P h)) /\
      circ (jn n') (jn q') l' /\ forall y, y ∉ x :: K q -> n' !! y = pn (P h) !! y /\ q' !! y = pv (P h) !! y) h4) as Hsll.
  { assert (wp (h_add_to_sll sr x) (fun _ h5 => exists n' q', P h5 = PM c2 (<[q:=S nrc]> (pr (P h))) (<[q:=head l']> (pf (P h))) n' q' (po (P h)) (pk (P h)) /\
      circ (jn n') (jn q') l' /\ forall y, y ∉ x :: K q -> n' !! y = pn (P h) !! y /\ q' !! y = pv (P h) !! y) h4) as Hw.
    { eapply (wp_add_to_sll _ q x i (K q)); [exact Hadd|..]; rewrite ?E4; psimpg; try done.
      - constructor; [apply HxK|done].
      - intros h5 n' q' E5 ? ?. exists n', q'. done. }
    destruct Hadd; exact Hw. }
  eapply wp_mono; [exact Hsll|]. clear Hsll. intros [] h5 (n'&q'&E5&Hcirc&Hfr).
  pose proof (added_perm _ _ _ _ _ _ _ Hadd) as Hperm.
  assert (Hixx : ix c2 x = i) by (unfold ix; by rewrite Hx2).
  pose proof (added_sorted _ c2 _ _ _ _ _ _ Hadd Hsort2 Hixx ltac:(done)) as Hsortl.
  assert (Hlx : o_grn cx ∈ po (P h)) by (by eapply owned_root).
  assert (Hlq' : live (po (P h)) (o_grn cq)) by (by eapply owned_live).
  assert (Hpc5 : pc (P h5) = c2) by (by rewrite E5). assert (Hpo5 : po (P h5) = po (P h)) by (by rewrite E5).
  apply wpx_wp_bind. eapply (wp_green_of q cq); [by rewrite Hpc5|by rewrite Hpo5|].
  apply wpx_wp_bind, wp_assert; [done|].
  apply wpx_wp_bind. eapply (wp_get x _ _ cx1); [by rewrite Hpc5|]. intros n En _ _ _ _.
  assert (n_grn n = o_grn cx) as -> by (rewrite <- (eq_refl : o_grn cx1 = o_grn cx), <- En; done). clear n En.
  pose proof (owned_wfg_live _ _ _ _ _ Ho Hlq') as Hwq.
  assert (Hwx : wfg (o_grn cx)) by (eapply owned_wfg_live; [exact Ho|by apply live_elem]).
  destruct (loc_gsub _ _ Hs _ _ _ Hlq) as (cr&cq0&Hr&Hrp&Hq0&Hgsq&_). assert (cq0 = cq) as -> by (fold c in Hq0; congruence).
  assert (Hts : tsub (erase (gr c r)) p = Some (erase (o_grn cq))) by (unfold gr; rewrite Hr; by rewrite erase_gsub, Hgsq).
  assert (Hgr2 : gr c2 r = gr c r) by (unfold gr; by rewrite Hr, (HRx _ _ Hrx Hr Hrp)).
  assert (Hins : forall g, gkind g = gkind (o_grn cq) -> gis_node g = true -> kids g = take i (kids (o_grn cq)) ++ o_grn cx :: drop i (kids (o_grn cq)) ->
     treplace (erase (gr c r)) p (erase g) = tinsert_child (erase (gr c r)) p i (erase (o_grn cx))).
  { intros g Hgk Hgn Hgkids. unfold tinsert_child. rewrite Hts.
    destruct (o_grn cq) as [aq kq tq csq|] eqn:Eq; [|done]. simpl. f_equal.
    destruct g as [ag kg tg csg|]; [|done]. simpl in *. subst kg. f_equal. unfold kids in Hgkids. simpl in Hgkids.
    rewrite <- (map_map snd erase csg), Hgkids, map_app. rewrite <- (map_map snd erase csq). simpl.
    by rewrite !fmap_take, !fmap_drop. }
  apply wpx_bind.
  eapply (wpx_green_build env _ (Some (o_grn cx))
    (fun g => i <= length (kids (o_grn cq)) /\ gkind g = gkind (o_grn cq) /\ gis_node g = true /\
              kids g = take i (kids (o_grn cq)) ++ o_grn cx :: drop i (kids (o_grn cq)))
    (fun e => e = Panic /\ (length (kids (o_grn cq)) < i \/
        (u32_max < blen (gctext (take i (kids (o_grn cq)) ++ o_grn cx :: drop i (kids (o_grn cq)))))%N))); try done.
  { rewrite Hpo5. apply (on_wf _ _ _ _ Ho). } { rewrite Hpo5. apply (on_coh _ _ _ _ Ho). } { by rewrite Hpo5. }
  { intros a. unfold green_insert_child.
    pose proof (splice_exact a (o_grn cq) (Included i) (Excluded i) [o_grn cx] Hwq ltac:(by repeat constructor)) as Hsp. simpl in Hsp.
    destruct (green_splice_children Checked a (o_grn cq) (Included i) (Excluded i) [o_grn cx]) as [g|e] eqn:Eg.
    - destruct Hsp as (Hle&Hk&Hn&Hkids).
      split_and!; try done.
      + unfold green_splice_children in Eg. apply res_bind_ok in Eg as (?&_&Eg). by apply green_new_children in Eg as (_&_&_&?).
      + apply built_wfg. eapply built_splice; [| |exact Eg]; [by apply wfg_built|constructor; [by apply wfg_built|constructor]].
      + intros y Hy. rewrite Hpo5. rewrite Hkids in Hy. apply elem_of_app in Hy as [Hy|[->|Hy]%elem_of_cons].
        * eapply live_kid; [exact Hlq'|by eapply elem_of_take'].
        * by apply live_elem.
        * eapply live_kid; [exact Hlq'|by eapply elem_of_drop].
      + lia.
    - destruct Hsp as [-> [Hbad|Hbig]]; (split; [done|]); [left; lia|by right]. }
  2:{ intros e [-> [Hbad|Hbig]]; (split; [done|]); [by left|]. right.
      unfold tinsert_child. rewrite Hts. destruct (o_grn cq) as [aq kq tq csq|] eqn:Eq; [|done]. simpl.
      eapply N.lt_le_trans; [exact Hbig|]. etrans; [|eapply treplace_text_le; exact Hts]. apply reflexive_eq. f_equal. unfold kids. simpl.
      rewrite <- (map_map snd erase csq). generalize (map snd csq) as l. intros l.
      change (map erase l) with (erase <$> l). rewrite <- (fmap_take erase), <- (fmap_drop erase).
      unfold gctext. rewrite !map_app. simpl. unfold gtext. change (?f <$> ?k) with (map f k). by rewrite !map_map. }
  intros g' h6 o' (Hile&Hgk&Hgn&Hgkids) Hwg Hd E6 Hwf6 Hco6. simpl in Hd. rewrite Hpo5 in Hd. rewrite E5 in E6. psimp E6.
  assert (Hpc6 : pc (P h6) = c2) by (by rewrite E6).
  pose proof (Hins g' Hgk Hgn Hgkids) as Hrep.
  assert (exists R', R ≡ₚ x :: R') as [R' HR'].
  { assert (x ∈ R) as (l1&l2&->)%elem_of_list_split by (apply (on_R _ _ _ _ Ho); eauto). exists (l1 ++ l2). by rewrite Permutation_middle. }
  assert (HndR : NoDup (x :: R')) by (rewrite <- HR'; apply (on_nodup _ _ _ _ Ho)).
  set (K2 := updK K q l').
  assert (HK2 : forall y z, y ∈ K2 z <-> (y ∈ K z \/ y = x /\ z = q)).
  { intros y z. unfold K2. destruct (decide (z = q)) as [->|Hne]; [rewrite updK_eq, Hperm, elem_of_cons; naive_solver|rewrite updK_ne by done; naive_solver]. }
  assert (Hsloc2 : sloc c2 q r p).
  { eapply sloc_agree; [by eapply loc_sloc|]. intros y s Hly Hlen. apply Hyn2.
    - intros ->. destruct (loc_inv_root _ _ _ _ _ Hly Hx Hp). done.
    - intros (cy&Hcy&Hpy)%HKc. pose proof (loc_child _ _ _ _ _ _ Hcy Hpy Hlq) as Hly'. destruct (loc_fun _ _ _ _ Hly _ _ Hly') as [_ <-].
      rewrite app_length in Hlen. simpl in Hlen. lia. }
  apply wpx_wp_bind, wp_size. eapply wpx_mono.
  - eapply (wpx_respine_loop env _ q g' h6 K2 R' G r p cq); rewrite ?Hpc6; try done.
    + (* shapeH *)
      constructor.
      * intros y cy2 qy Hy2 Hpy. destruct (Hc2c _ _ Hy2) as (cy&Hcy&Hgy&Hmy&Hoy&[[-> ->]|[(Hne&Hin&->)|(Hne&Hnin&->)]]).
        -- simpl in Hpy. injection Hpy as <-. destruct (kids_gch g' i (o_grn cx)) as [rel Hrel].
           { rewrite Hgkids. rewrite lookup_app_r; rewrite take_length_le by lia; [|lia]. by rewrite Nat.sub_diag. }
           exists cq, rel. rewrite decide_True by done. split_and!; try done; simpl; congruence.
        -- destruct (Hf cy) as (Hfp&_&_&_&Hfi). rewrite Hfp in Hpy. destruct (HKc _ Hin) as (cy'&Hcy'&Hpy'). assert (cy' = cy) as -> by congruence.
           assert (qy = q) as -> by congruence.
           destruct (sh_child _ _ Hs _ _ _ Hcy Hpy') as (cq'&rely&Hq'&Hmqy&Hchy&_). assert (cq' = cq) as -> by congruence.
           apply gch_kids in Hchy. pose proof (lookup_lt_Some _ _ _ Hchy) as Hlt.
           destruct (kids_gch g' (o_idx (f cy)) (o_grn cy)) as [rel' Hrel'].
           { rewrite Hgkids, Hfi. destruct (Nat.leb_spec i (o_idx cy)).
             - rewrite lookup_app_r; rewrite take_length_le by lia; [|lia]. replace (S (o_idx cy) - i) with (S (o_idx cy - i)) by lia. simpl.
               rewrite lookup_drop. rewrite <- Hchy. f_equal. lia.
             - rewrite lookup_app_l by (rewrite take_length_le; lia). rewrite lookup_take by lia. done. }
           exists cq, rel'. rewrite decide_True, Hgy, Hmy by done. split_and!; try done. congruence.
        -- assert (qy <> q) as Hqy. { intros ->. apply Hnin, (sh_K _ _ Hs). eauto. }
           destruct (sh_child _ _ Hs _ _ _ Hcy Hpy) as (cq'&rely&Hq'&Hmqy&Hchy&Hoffy).
           destruct (Hcc2 _ _ Hq') as (cq2&Hcq2&Eg&Em&Eo). exists cq2, rely. rewrite decide_False, Eg, Em, Eo by done. done.
      * intros y cy2 Hy2 Hpy Hmy. destruct (Hc2c _ _ Hy2) as (cy&Hcy&Hgy&Hmy'&Hoy&[[-> ->]|[(Hne&Hin&->)|(Hne&Hnin&->)]]).
        -- done.
        -- destruct (Hf cy) as (Hfp&_&_&_&Hfi). destruct (HKc _ Hin) as (cy'&Hcy'&Hpy'). congruence.
        -- by apply (sh_root _ _ Hs _ _ Hcy).
      * intros qy y. rewrite HK2. split.
        -- intros [(cy&Hcy&Hpy)%(sh_K _ _ Hs)|[-> ->]]; [|eauto]. destruct (decide (y ∈ K q)) as [Hin|Hnin].
           { exists (f cy). destruct (Hf cy) as (->&_). split; [by apply HyK2|done]. }
           { exists cy. rewrite Hyn2; [done| |done]. intros ->. congruence. }
        -- intros (cy2&Hy2&Hpy). destruct (Hc2c _ _ Hy2) as (cy&Hcy&_&_&_&[[-> ->]|[(_&Hin&->)|(_&Hnin&->)]]).
           { simpl in Hpy. right. split; [done|congruence]. }
           { destruct (Hf cy) as (Hfp&_). rewrite Hfp in Hpy. left. apply (sh_K _ _ Hs). eauto. }
           { left. apply (sh_K _ _ Hs). eauto. }
      * intros z. unfold K2. destruct (decide (z = q)) as [->|Hne].
        -- rewrite updK_eq, Hperm. constructor; [apply HxK|done].
        -- rewrite updK_ne by done. apply (sh_nodup _ _ Hs).
      * intros z cz Hz Hmz. destruct (Hc2c _ _ Hz) as (cz0&Hcz0&_&Hmz0&_). unfold K2. destruct (decide (z = q)) as [->|Hne].
        -- by rewrite updK_eq.
        -- rewrite updK_ne by done. rewrite (map_ext_in _ (ix c)); [eapply (sh_sorted _ _ Hs); [exact Hcz0|congruence]|].
           intros y Hy. unfold ix. rewrite Hyn2; [done| |]. { intros ->. by apply (HxK z). } intros Hy'. apply Hne. by apply (sh_K_disj _ _ Hs y).
    + intros y. assert (y ∈ R' <-> y ∈ R /\ y <> x) as ->.
      { rewrite HR', elem_of_cons. apply NoDup_cons in HndR as [HxR _]. split; [|naive_solver]. intros Hy. split; [by right|]. by intros ->. }
      rewrite (on_R _ _ _ _ Ho). split.
      * intros [(cy&Hcy&Hpy) Hne]. exists cy. split; [by apply HRx|done].
      * intros (cy2&Hy2&Hpy). destruct (Hc2c _ _ Hy2) as (cy&Hcy&_&_&_&[[-> ->]|[(_&Hin&->)|(?&Hnin&->)]]).
        -- done.
        -- destruct (Hf cy) as (Hfp&_). destruct (HKc _ Hin) as (cy'&?&?). congruence.
        -- split; [eauto|done].
    + by apply NoDup_cons in HndR as [_ ?].
    + rewrite E6. psimpg. constructor. pose proof (on_perm _ _ _ _ Ho) as Hop. rewrite HR' in Hop. simpl in Hop. rewrite Hd in Hop.
      unfold gr at 1 in Hop. fold c in Hop. rewrite Hx in Hop. apply Permutation_cons_inv in Hop. rewrite Hop. f_equiv.
      apply reflexive_eq, map_ext_in. intros y Hy. assert (y <> x) as Hne by (intros ->; by apply NoDup_cons in HndR as [? _]).
      assert (y ∈ R) as (cy&Hcy&Hpy)%(on_R _ _ _ _ Ho) by (rewrite HR'; by right).
      unfold gr. fold c. by rewrite Hcy, (HRx _ _ Hne Hcy Hpy).
    + by rewrite E6.
    + by rewrite E6.
    + pose proof (loc_depth _ _ Hs _ _ _ Hlq) as Hdep. rewrite P_size, Hpc6.
      assert (size c2 = size c) as ->; [|lia]. rewrite <- !size_dom. f_equal. apply set_eq. intros y. rewrite !elem_of_dom. split.
      * intros [? (?&?&_)%Hc2c]. eauto.
      * intros [? (?&?&_)%Hcc2]. eauto.
  - (* afterwards *)
    intros [] h7 (Epr&Epf&Epn&Epv&Hsk&Hsh&Hown&Hoth&Her). rewrite Hpc6 in Hsk, Hoth, Her.
    rewrite E6 in Epr, Epf, Epn, Epv. psimp Epr. psimp Epf. psimp Epn. psimp Epv. rewrite Hgr2, Hrep in Her.
    assert (Hi7 : inv h7 H G).
    { exists K2, R'. split_and!; [done|done| |].
      - rewrite Epf, Epn, Epv. eapply skel_links; [exact Hsk|]. constructor.
        + intros y cy2 Hy2 Hmy. destruct (Hc2c _ _ Hy2) as (cy&Hcy&_&Hmy'&_). rewrite Hmy in Hmy'. symmetry in Hmy'.
          unfold K2. destruct (decide (y = q)) as [->|Hne]; [rewrite lookup_insert, updK_eq; done|].
          rewrite lookup_insert_ne, updK_ne by done. destruct (lk_mut _ _ _ _ _ Hl _ _ Hcy Hmy') as [Hfy Hcy'].
          split; [done|]. eapply circ_frame; [exact Hcy'|]. intros z Hz. unfold jn. destruct (Hfr z) as [-> ->]; [|done].
          intros [->|Hz']%elem_of_cons; [by apply (HxK y)|]. apply Hne. by apply (sh_K_disj _ _ Hs z).
        + intros y cy2 Hy2 Hmy Hpy. destruct (Hc2c _ _ Hy2) as (cy&Hcy&_&Hmy'&_&[[-> ->]|[(_&Hin&->)|(?&Hnin&->)]]).
          * done.
          * destruct (Hf cy) as (Hfp&_). destruct (HKc _ Hin) as (cy'&?&?). congruence.
          * destruct (Hfr y) as [-> ->]; [by rewrite not_elem_of_cons|]. by apply (lk_root _ _ _ _ _ Hl _ _ Hcy).
        + intros y cy2 Hy2 Hmy. destruct (Hc2c _ _ Hy2) as (cy&Hcy&_&Hmy'&_).
          rewrite lookup_insert_ne; [apply (lk_imm _ _ _ _ _ Hl _ _ Hcy); congruence|]. intros <-. congruence.
      - rewrite Epr. eapply skel_counts; [exact Hsk|].
        assert (Hal : forall y, is_Some (c2 !! y) <-> is_Some (c !! y)).
        { intros y. split; [intros [? (?&?&_)%Hc2c]; eauto|intros [? (?&?&_)%Hcc2]; eauto]. }
        assert (Hcnt : forall y, length (K2 y) = if decide (y = q) then S (length (K y)) else length (K y)).
        { intros y. unfold K2. case_decide as Hyq; [subst y; by rewrite updK_eq, Hperm|by rewrite updK_ne]. }
        destruct Hc as [H1 H2 H3 H4]. constructor.
        + intros y. rewrite Hal, Hcnt. intros Hy. case_decide as Hyq; [subst y; rewrite lookup_insert|rewrite lookup_insert_ne by done; auto].
          rewrite H1 in Hnrc by eauto. injection Hnrc as <-. f_equal. lia.
        + intros y. rewrite Hal, Hcnt. intros Hy Hz. apply H2; [done|]. case_decide; lia.
        + done.
        + intros y Hy. apply Hal; auto. }
    assert (Hmr7 : forall z, (o_mut <$> pc (P h7) !! z) = (o_mut <$> c !! z)).
    { intros z. specialize (Hsk z). destruct (c !! z) as [cz|] eqn:Ez.
      - destruct (Hcc2 _ _ Ez) as (cz2&Ez2&_&Em&_). rewrite Ez2 in Hsk. destruct (pc (P h7) !! z) as [cz7|]; [|done].
        destruct Hsk as (_&_&Em7&_). simpl. congruence.
      - destruct (c2 !! z) as [cz2|] eqn:Ez2; [destruct (Hc2c _ _ Ez2) as (?&?&_); congruence|]. by destruct (pc (P h7) !! z). }
    split_and!; [done|done| |].
    { rewrite <- Her. assert (is_Some (pc (P h7) !! r)) as [cr7 Hr7] by (apply (skel_is_some _ _ _ Hsk); rewrite (HRx _ _ Hrx Hr Hrp); eauto).
      assert (o_par cr7 = None). { pose proof (Hsk r) as Hskr. rewrite (HRx _ _ Hrx Hr Hrp), Hr7 in Hskr. destruct Hskr as (?&_). congruence. }
      fold (gtext (gr (pc (P h7)) r)). apply wfg_bound. unfold gr. rewrite Hr7. eapply owned_wfg_live; [exact Hown|]. by eapply live_elem, owned_root. }
    intros y Hy r' s Hly.
    assert (Hmap : if decide (r' = r \/ r' = x) then loc c2 y r (if decide (r' = r) then pos_inserted p i s else p ++ i :: s) else loc c2 y r' s).
    { clear Hy. induction Hly as [y cy Hcy Hpy|y cy z r' s Hcy Hpy Hlz IH].
      - destruct (decide (y = x)) as [->|Hyx].
        + rewrite decide_True by (by right). rewrite decide_False by done. eapply (loc_child _ x cx1); [done|done|by apply sloc_loc].
        + assert (loc c2 y y []) as Hl2 by (eapply loc_root; [by apply HRx|done]).
          case_decide as Hd'; [|done]. destruct Hd' as [-> | ->]; [|done]. rewrite decide_True by done. destruct p as [|j p']; [done|]. done.
      - assert (Hyx : y <> x) by (intros ->; congruence).
        destruct (decide (y ∈ K q)) as [Hin|Hnin].
        { destruct (HKc _ Hin) as (cy'&?&?). assert (z = q) as -> by congruence.
          destruct (loc_fun _ _ _ _ Hlq _ _ Hlz) as [-> ->]. rewrite decide_True by (by left). rewrite decide_True by done.
          rewrite pos_inserted_child. destruct (Hf cy) as (Hfp&_&_&_&Hfi). rewrite <- Hfi.
          eapply loc_child; [by apply HyK2|by rewrite Hfp|]. by apply sloc_loc. }
        assert (Hcy2 : c2 !! y = Some cy) by (by rewrite Hyn2).
        assert (z <> q) as Hzq. { intros ->. apply Hnin, (sh_K _ _ Hs). eauto. }
        case_decide as Hd'; [|by eapply loc_child].
        case_decide as Hd2.
        + subst r'. assert (s <> p) as Hsp. { intros ->. apply Hzq. exact (loc_inj_mut _ _ _ _ _ _ Hs Hlz Hlq Hmr). }
          rewrite pos_inserted_snoc by done. by eapply loc_child.
        + rewrite app_comm_cons, app_assoc. by eapply loc_child. }
    case_decide as Hd'.
    + split_and!; [by eapply skel_loc| |by rewrite Hmr7]. rewrite Her. assert (gr c x = o_grn cx) as -> by (unfold gr; by rewrite Hx). done.
    + split; [by eapply skel_loc|]. destruct (loc_root_core _ _ _ _ Hly) as (cr'&Hr'&Hpr').
      assert (r' <> x) by (intros ->; apply Hd'; by right). assert (r' <> r) by (intros ->; apply Hd'; by left).
      split; [|by rewrite Hmr7]. unfold gr. rewrite (Hoth r' cr'), Hr'; [done|by apply HRx|done|done].
  - intros e [-> He]. split; [done|]. right. by rewrite Hpc6, Hgr2, Hrep in He.
Qed.
