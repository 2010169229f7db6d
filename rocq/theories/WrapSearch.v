(** * Searches by range in nodes of at most [u32::MAX] bytes of longer trees (proofs only) *)
From Verif Require Export WrapRange.

Lemma gctext_take_le l : forall i, (blen (gctext (take i l)) <= blen (gctext l))%N.
Proof. intros i. rewrite <- (take_drop i l) at 2. unfold gctext. rewrite map_app, concat_app, blen_app. lia. Qed.
Lemma gctext_elem_le l x : x ∈ l -> (blen (gtext x) <= blen (gctext l))%N.
Proof. intros (l1&l2&->)%elem_of_list_split. unfold gctext. rewrite map_app, concat_app, blen_app. cbn [map concat]. rewrite blen_app. lia. Qed.
(** where the text fits, nothing has wrapped *)
Lemma wfw_small g : wfw g -> (blen (gtext g) <= u32_max)%N -> wfg g.
Proof.
  induction g as [a k tl cs IH|a k s] using green_ind'; intros Hw Hb.
  - pose proof Hw as Hw0. inversion Hw as [|aa kk els Hels Hf]; subst. rewrite gtext_node, moffsets_snd in Hb.
    assert (Hm : m32 (blen (gctext els)) = blen (gctext els)) by (by apply m32_small).
    apply wfg_node_intro; rewrite ?moffsets_snd.
    + rewrite Forall_forall in IH. rewrite Forall_forall. intros x Hx. rewrite Forall_forall in Hels.
      assert (exists c, c ∈ moffsets 0 els /\ c.2 = x) as (c&Hc&<-). { rewrite <- (moffsets_snd 0 els) in Hx. apply CacheFacts.elem_of_map in Hx as (c&Hc&?). by exists c. }
      apply (IH c Hc); [by apply Hels|]. pose proof (gctext_elem_le els c.2 Hx). unfold u32_max in *. lia.
    + done.
    + by rewrite Hm.
    + intros i c Hc. destruct (moffsets_lookup _ _ _ _ Hc) as [E _]. rewrite E, N.add_0_l. apply m32_small. pose proof (gctext_take_le els i). unfold u32_max in *. lia.
  - by constructor.
Qed.

Section searches.
Context (env : henv) (Henv : henv_ok env).

Lemma rel_node st hs h s n p t' : simulates st (bhs hs) (bh h) -> HG h ->
  s_handles st !! s = Some (Some (@pair nat pos n p)) -> s_trees st !! n = Some (true, t') ->
  exists z nx t, h_handles hs !! s = Some (Some z) /\ hn h !! z = Some nx /\ t' = hide t /\ tsub t p = Some (erase (n_grn nx)) /\
    h_green z h = (Ok (n_grn nx), h) /\ @h_offset W z h = (Ok (m32 (blen (tbefore t p))), h).
Proof using Type.
  intros (zs&lk&Hsim) HG0 Hs Ht. pose proof (sm_sim _ _ _ _ _ _ Hsim) as HS. pose proof (sm_pos _ _ _ _ _ _ Hsim) as Hp. pose proof (sm_handles _ _ _ _ _ _ Hsim) as Hh.
  rewrite Hp in Hs. apply lookup_map_fmap in Hs as (z&Hz&Ez).
  assert (Hx : h_handles hs !! s = Some (Some z.1)). { cbn [bhs h_handles] in Hh. rewrite Hh. by apply lookup_map_some. }
  assert (HzZ : z ∈ [] ++ somes zs ++ lk). { cbn [app]. apply elem_of_app. left. by eapply slot_elem. }
  destruct (simH_alive _ _ _ _ _ HS HzZ) as (r&m&cz&Hl&HT&Hcz&Hmu&Hsub). rewrite <- Ez in HT, Hl, Hsub. cbn [fst snd] in HT, Hl, Hsub. rewrite Ht in HT. injection HT as <- ->.
  destruct HS as [(K&R&Hsh&Ho&_) _].
  destruct (bare_core h _ _ Hcz) as (nx&Hnx&->). cbn [core_of bn o_mut n_mut] in Hmu.
  assert (exists nr, hn h !! r = Some nr) as (nr&Hnr).
  { destruct (loc_gsub _ _ Hsh _ _ _ Hl) as (cr&_&Hcr&_). apply bare_core in Hcr as (nr&Hnr&_). by exists nr. }
  pose proof (loc_hide h K Hsh _ _ _ _ _ Hl Hnr Hnx) as Hsub'.
  exists z.1, nx, (erase (n_grn nr)). split; [done|]. split; [done|]. split; [by rewrite (erase_gr_bare _ _ _ Hnr), erase_bare|]. split; [done|].
  split; [exact (bare_green h K R _ Hsh Ho _ _ Hnx)|].
  unfold h_offset, mbind, hm_bind, h_get. rewrite Hnx, Hmu. unfold h_size.
  rewrite (off_loop h K R _ Hsh Ho HG0 _ _ _ Hl _ 0%N nr); [done| |by vm_compute|done].
  pose proof (loc_depth _ _ Hsh _ _ _ Hl) as Hd. rewrite <- P_size in Hd. cbn [bh hn] in Hd. rewrite map_size_fmap in Hd. lia.
Qed.

(** the child found is the child that is asked for *)
Lemma child_found i s st hs h hh m t k cs z : simulates st (bhs hs) (bh h) ->
  s_handles st !! s = Some (Some hh) -> s_trees st !! hh.1 = Some (m, t) -> tsub t hh.2 = Some (Node k cs) ->
  h_handles hs !! s = Some (Some z) -> i < length cs ->
  exists y h', @h_child_opt W env (selj i) z h = (Ok (Some y), h') /\ simulates (add_handle (Some (hh.1, hh.2 ++ [i])) st) (bhs (hadd (Some y) hs)) (bh h').
Proof using Henv.
  intros (zs&lk&Hsim) Hh Ht Hx Hz' Hilt. pose proof (sm_sim _ _ _ _ _ _ Hsim) as HS. cbn [app] in HS.
  destruct (sim_slot _ _ _ _ _ _ _ _ Hsim Hh) as (z0&Hz&->&Hzh&Hin). cbn [bhs h_handles] in Hzh. cbn [app] in Hin. rewrite Hz' in Hzh. injection Hzh as ->.
  assert (Hd : wp (@h_child_opt Checked env (selj i) z0.1) (fun y h' => exists Zn, got z0.2.1 ((fun i => z0.2.2 ++ [i]) <$> Some i) y Zn /\ simH h' (s_trees st) (Zn ++ somes zs ++ lk) (somes (h_greens (bhs hs)))) (bh h)).
  { eapply (sim_down env Henv (selj i) (fun _ => Some i) (bh h) _ _ _ z0 m _ k cs); [exact HS|done|done|done|]. intros g Hwg Eg. unfold sel_ok, selj.
    assert (Hlg : i < length (gchildren g)). { destruct g as [ga gk gt gl|]; [|discriminate Eg]. cbn [erase] in Eg. injection Eg as _ El. simpl. rewrite <- El, map_length in Hilt. done. }
    destruct (lookup_lt_is_Some_2 _ _ Hlg) as [cc Ec]. rewrite Ec. split; [|done]. intros i' c' [= <- <-]. done. }
  apply wp_ok in Hd as (y&h2&Ed&Zn&Hgot&HS2). pose proof (a_child_opt env (selj i) z0.1 (bh h)) as Ha. rewrite Ed in Ha. destruct Ha as [Ha|Ha]; [|discriminate Ha].
  assert (Hsel : forall l, selj i (map bc l) = option_map bic (selj i l)). { intros l. unfold selj. rewrite lookup_map. by destruct (l !! i). }
  pose proof (e_child_opt env (selj i) (selj i) z0.1 Hsel h) as He. rewrite Ha in He.
  destruct (@h_child_opt W env (selj i) z0.1 h) as [[y1|e] h1]; [|discriminate He]. injection He as <- ->.
  destruct y as [y|]; [|done]. cbn [got fmap option_fmap option_map] in Hgot. subst Zn. exists y, h1. split; [done|].
  exists (zs ++ [Some (y, (z0.2.1, z0.2.2 ++ [i]))]), lk. apply (sim_add_handle st (bhs hs) zs lk (bh h) (bh h1) (Some (y, (z0.2.1, z0.2.2 ++ [i]))) Hsim); [|done].
  intros z' u [= <-] Hu. apply (sm_leak_alone _ _ _ _ _ _ Hsim z0 u); [by eapply slot_elem|done].
Qed.

Lemma search_exact st hs h s n p t k cs a b : simulates st (bhs hs) (bh h) -> HG h ->
  s_handles st !! s = Some (Some (@pair nat pos n p)) -> s_trees st !! n = Some (true, hide t) -> tsub t p = Some (Node k cs) ->
  (blen (ttext (Node k cs)) <= u32_max)%N -> (a <= b)%N ->
  let o := m32 (blen (tbefore t p)) in
  if (o <=? a)%N then
    exists y h', xstep W env (OAtRange a b s) hs h = (Ok (hadd y hs, None), h') /\
      simulates (add_handle ((fun i => (n, p ++ [i])) <$> at_range cs (a - o) (b - o)) st) (bhs (hadd y hs)) (bh h')
  else xstep W env (OAtRange a b s) hs h = (Err Panic, h).
Proof using Henv.
  intros Hs HG0 Hh Ht Hx Hb Hab o. destruct (rel_node st hs h s n p _ Hs HG0 Hh Ht) as (z&nx&t1&Hz&Hnx&Et&Hsub&Hgr&Hoff).
  apply hide_inj in Et as <-. rewrite Hx in Hsub. injection Hsub as Eg. fold o in Hoff.
  assert (Hnode : gis_node (n_grn nx) = true). { destruct (n_grn nx); [done|]. discriminate Eg. }
  assert (Hw : wfg (n_grn nx)). { apply wfw_small; [by eapply built_rel_wfw, HG0|]. unfold gtext. by rewrite <- Eg. }
  cbn [xstep]. rewrite Hz. change (h_slot (Some (Some z)) ≫= ?f) with (f z). cbv beta. unfold mbind at 1 2, hm_bind.
  rewrite (at_range_child W env z (n_grn nx) (TR a b) h h o Hoff Hgr Hnode). unfold range_sub. cbn [rstart rend].
  destruct (N.leb_spec o a) as [Hoa|Hoa]; [|done].
  rewrite (search_fits W (n_grn nx) _ Hw). assert (Hrk : range_ok (TR (a - o) (b - o))) by (unfold range_ok; simpl; lia).
  pose proof (at_range_spec _ _ Hw Hnode Hrk) as Hat. pose proof (child_at_range_spec _ _ Hw Hrk) as Hsp. rewrite <- Eg in Hat. cbn [tchildren rstart rend] in Hat.
  rewrite <- Hat. destruct (child_at_range (n_grn nx) (TR (a - o) (b - o))) as [[[i ro] g]|]; cbn [option_map fmap option_fmap fst snd].
  - destruct Hsp as (Hi&_). apply lookup_lt_Some in Hi. assert (Hilt : i < length cs). { destruct (n_grn nx) as [aa kk tl l|]; [|discriminate Eg]. cbn [erase] in Eg. injection Eg as _ ->. simpl in Hi. by rewrite map_length. }
    assert (Hxh : tsub (hide t) p = Some (Node (enc k None) (map hide cs))) by (by rewrite tsub_hide, Hx).
    destruct (child_found i s st hs h (n, p) true (hide t) (enc k None) (map hide cs) z Hs Hh Ht Hxh Hz ltac:(by rewrite map_length)) as (y&h'&E&Hs').
    rewrite E. by exists (Some y), h'.
  - exists None, h. split; [done|]. destruct Hs as (zs&lk&Hsim). exists (zs ++ [None]), lk. apply (sim_add_handle st (bhs hs) zs lk (bh h) (bh h) None Hsim); [done|].
    exact (sm_sim _ _ _ _ _ _ Hsim).
Qed.

(** ** Green trees on the heap are built ones *)
Lemma g_xstep o hs : Hsg hs -> gt (fun r => Hsg r.1) (xstep W env o hs).
Proof using Type.
  intros Hs. destruct o; try (apply g_step; [done|exact Hs]). cbn [xstep].
  assert (Hsl : gt any_ (h_slot (h_handles hs !! s))). { unfold h_slot. destruct (h_handles hs !! s) as [[x|]|]; [by apply gt_ret|apply gt_panic|apply gt_panic]. }
  apply (gt_bind any_); [exact Hsl|]. intros x _. apply (gt_bind any_).
  - unfold h_at_range_x. apply (gt_bind any_); [apply g_offset|]. intros o _. apply (gt_bind any_); [by apply gt_lift|]. intros rel _.
    apply (gt_bind built_rel); [apply gt_green|]. intros g Hg. apply (gt_bind any_); [apply gt_assert|]. intros _ _.
    apply (gt_bind bso).
    { apply gt_lift. intros [[i c]|] E; [|done]. apply search_valid in E. cbn [bso snd]. apply (br_child g c); [exact Hg|]. by eapply elem_of_list_lookup_2. }
    intros [ic|] Hic; [|by apply gt_ret]. apply (gt_bind any_); [apply g_clone|]. intros q _. apply (gt_bind any_); [by apply g_mk_child|]. intros c _. by apply gt_ret.
  - intros y _. apply gt_ret. exact Hs.
Qed.
Lemma g_xrun prog : forall hs, Hsg hs -> gt (fun r => Hsg r.1) (xrun W env prog hs).
Proof using Type.
  induction prog as [|o prog IH]; intros hs Hs; cbn [xrun]; [by apply gt_ret|]. eapply gt_bind; [by apply g_xstep|]. intros [hs1 x] H1.
  eapply gt_bind; [by apply IH|]. intros [hs2 xs] H2. by apply gt_ret.
Qed.
Lemma g_xclient prog hs os h : xclient W env prog = (Ok (hs, os), h) -> Hsg hs /\ HG h.
Proof using Type.
  intros E. pose proof (g_xrun prog h_init) as H. specialize (H ltac:(intros i g Hi; cbn [h_init h_greens] in Hi; by rewrite lookup_nil in Hi) (HP ∅ [] 0)).
  unfold xclient in E. rewrite E in H. apply H. intros x n Hx. cbn [hn] in Hx. by rewrite lookup_empty in Hx.
Qed.
End searches.
Lemma mute_acts acts : forall st st1 os, mute st -> a_run_ acts st = SOk (st1, os) -> mute st1.
Proof.
  induction acts as [|x acts IH]; intros st st1 os Hm; cbn [a_run_]; [by intros [= <- _]|].
  intros ([st2 o]&E&([st3 os3]&E3&[= <- _])%sok_bind)%sok_bind. eapply IH; [|exact E3]. destruct x as [o'|s j]; cbn [a_step_] in E; [by eapply mute_step|].
  apply sok_bind in E as (hh&_&([m y]&_&([]&_&([]&_&[= <- _])%sok_bind)%sok_bind)%sok_bind). destruct Hm as [H1 H2]. by split.
Qed.
Lemma x_client_end env prog hs os h : henv_ok env -> (forall acts, Forall2 resolves prog acts -> a_run_ acts s_init <> SIll) ->
  xclient W env prog = (Ok (hs, os), h) ->
  exists acts st, Forall2 resolves prog acts /\ a_run_ acts s_init = SOk (st, map (option_map hide_look) os) /\ simulates st (bhs hs) (bh h) /\ mute st /\ HG h.
Proof.
  intros Henv Hi Ec. destruct (g_xclient env prog hs os h Ec) as [_ Hg].
  destruct (x_client_one env Henv prog) as (pre&post&acts&st&hs'&os'&h'&->&HF&Ea&Ex&Hs&[->|(o&rest&->&[Hc|[[_ H]|[_ H]]])]).
  - rewrite app_nil_r in *. rewrite Ex in Ec. injection Ec as -> -> ->. exists acts, st. split_and!; try done. eapply mute_acts; [exact mute_init|exact Ea].
  - exfalso. destruct (ill_later pre acts s_init st _ o rest HF Ea Hc) as (acts'&H1&H2). by apply (Hi acts').
  - rewrite Ec in H. discriminate H.
  - rewrite Ec in H. discriminate H.
Qed.
