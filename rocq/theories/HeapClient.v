(** * What client programs do on the heap *)
From Verif Require Export HeapProg ClientHist.

(** after running [prog] the handle in slot [s] shows [l] *)
Definition shows (env : henv) (prog : list op) (s : nat) (l : look) : Prop :=
  exists os hs h, client env (prog ++ [OLook s]) = (Ok (hs, os ++ [Some l]), h).
Lemma shows_fun env prog s l l' : shows env prog s l -> shows env prog s l' -> l = l'.
Proof.
  intros (os&hs&h&E) (os'&hs'&h'&E'). rewrite E in E'. injection E' as _ E' _. apply app_inj_tail in E' as [_ E']. by injection E'.
Qed.

Section client.
Context (env : henv) (Henv : henv_ok env).
Lemma reach prog st os : s_run prog s_init = SOk (st, os) ->
  exists hs h, client env prog = (Ok (hs, os), h) /\ simulates st hs h /\ wf_st st.
Proof using Henv.
  intros E. pose proof (client_sim env prog Henv) as H. unfold meets in H. rewrite E in H. apply wp_ok in H as ([hs os']&h&H1&H2&H3).
  simpl in *. subst os'. exists hs, h. split_and!; [exact H1|exact H3|]. eapply s_run_wf; [exact wf_init|exact E].
Qed.
Lemma shows_look prog st os s h l : s_run prog s_init = SOk (st, os) -> s_handles st !! s = Some (Some h) -> s_look st h = SOk l -> shows env prog s l.
Proof using Henv.
  intros E Hs Hl. assert (E2 : s_run (prog ++ [OLook s]) s_init = SOk (st, os ++ [Some l])).
  { rewrite s_run_app, E. simpl. rewrite Hs. simpl. by rewrite Hl. }
  destruct (reach _ _ _ E2) as (hs&hp&H&_). by exists os, hs, hp.
Qed.
(** what the machine says is what is shown *)
Lemma shows_iff prog st os s h l : s_run prog s_init = SOk (st, os) -> s_handles st !! s = Some (Some h) -> shows env prog s l <-> s_look st h = SOk l.
Proof using Henv.
  intros E Hs. split; [|by eapply shows_look]. intros H. assert (Hwf : wf_st st) by (eapply s_run_wf; [exact wf_init|exact E]).
  destruct (s_look_wf st s h Hwf Hs) as [l' Hl']. pose proof (shows_look _ _ _ _ _ _ E Hs Hl') as H'. by rewrite (shows_fun _ _ _ _ _ H H').
Qed.
Lemma shows_step prog st os o st' x s h l :
  s_run prog s_init = SOk (st, os) -> s_step o st = SOk (st', x) -> s_handles st' !! s = Some (Some h) -> s_look st' h = SOk l -> shows env (prog ++ [o]) s l.
Proof using Henv. intros E Ho Hs Hl. eapply shows_look; [|done|done]. rewrite s_run_app, E. simpl. by rewrite Ho. Qed.
Lemma run_step prog st os o st' x : s_run prog s_init = SOk (st, os) -> s_step o st = SOk (st', x) -> s_run (prog ++ [o]) s_init = SOk (st', os ++ [x]).
Proof. intros E Ho. rewrite s_run_app, E. simpl. by rewrite Ho. Qed.

(** ** Panics leave the heap alone *)
Lemma handle_imm st hs h s n p t : simulates st hs h -> s_handles st !! s = Some (Some (@pair nat pos n p)) -> s_trees st !! n = Some (false, t) ->
  exists x nd, h_handles hs !! s = Some (Some x) /\ hn h !! x = Some nd /\ n_mut nd = false.
Proof.
  intros (zs&lk&Hsim) Hs Ht. destruct (sim_slot _ _ _ _ _ _ _ _ Hsim Hs) as ([x [n' p']]&_&E&Hx&Hin). simpl in E. injection E as <- <-.
  pose proof (sm_sim _ _ _ _ _ _ Hsim) as [_ [H1 _]]. destruct (H1 _ Hin) as (r&m&_&HT&Hm). simpl in HT, Hm, Hx. rewrite Ht in HT. injection HT as <- _.
  rewrite P_pc in Hm. destruct (hn h !! x) as [nd|] eqn:E; [|done]. simpl in Hm. injection Hm as Hm. eauto.
Qed.
Lemma detach_imm st hs h s n p t : simulates st hs h -> s_handles st !! s = Some (Some (@pair nat pos n p)) -> s_trees st !! n = Some (false, t) ->
  hstep env (ODetach s) hs h = (Err Panic, h).
Proof.
  intros H1 H2 H3. destruct (handle_imm _ _ _ _ _ _ _ H1 H2 H3) as (x&nd&E1&E2&E3). cbn [hstep]. rewrite E1.
  unfold h_detach, h_get, h_slot, hassert, lift, mret, hm_ret, mbind, hm_bind. rewrite E2, E3. done.
Qed.
Lemma splice_imm st hs h s a b ins n p t : simulates st hs h -> s_handles st !! s = Some (Some (@pair nat pos n p)) -> s_trees st !! n = Some (false, t) ->
  Forall (full st) ins -> hstep env (OSplice s a b ins) hs h = (Err Panic, h).
Proof.
  intros H1 H2 H3 HF. destruct (handle_imm _ _ _ _ _ _ _ H1 H2 H3) as (x&nd&E1&E2&E3). cbn [hstep]. rewrite E1.
  destruct H1 as (zs&lk&Hsim). destruct (mapM_slots st hs zs lk h ins Hsim) as (ys&Hys&_).
  { apply forallb_forall. intros c Hc%elem_of_list_In. rewrite Forall_forall in HF. destruct (HF c Hc) as [hc E]. rewrite E. apply bool_decide_eq_true. by eexists. }
  rewrite Hys. unfold h_splice_children, h_get, h_slot, hassert, lift, mret, hm_ret, mbind, hm_bind. rewrite E2, E3. done.
Qed.

(** ** Nodes of mutable trees are unique *)
Lemma handle_unique st hs h s1 s2 n p t : simulates st hs h ->
  s_handles st !! s1 = Some (Some (@pair nat pos n p)) -> s_handles st !! s2 = Some (Some (@pair nat pos n p)) -> s_trees st !! n = Some (true, t) ->
  h_handles hs !! s1 = h_handles hs !! s2.
Proof.
  intros (zs&lk&Hsim) Hs1 Hs2 Ht. destruct (sim_slot _ _ _ _ _ _ _ _ Hsim Hs1) as ([x1 [n1 p1]]&_&E1&Hx1&Hin1). destruct (sim_slot _ _ _ _ _ _ _ _ Hsim Hs2) as ([x2 [n2 p2]]&_&E2&Hx2&Hin2).
  simpl in E1, E2, Hx1, Hx2. injection E1 as <- <-. injection E2 as <- <-. rewrite Hx1, Hx2. do 2 f_equal.
  pose proof (sm_sim _ _ _ _ _ _ Hsim) as [(K&R&Hsh&_) [H1 H2]]. destruct (H1 _ Hin1) as (r1&m1&Hl1&HT1&Hm1). destruct (H1 _ Hin2) as (r2&m2&Hl2&HT2&Hm2). simpl in *.
  assert (r1 = r2) as -> by (by eapply (H2 _ _ r1 r2 Hin1 Hin2 Hl1 Hl2)). rewrite Ht in HT1. injection HT1 as <- _.
  eapply (loc_inj_mut _ _ _ _ _ _ Hsh Hl1 Hl2). exact (root_mut _ _ _ _ _ _ Hsh Hl1 Hm1).
Qed.
Lemma handle_distinct st hs h s1 s2 h1 h2 : simulates st hs h ->
  s_handles st !! s1 = Some (Some h1) -> s_handles st !! s2 = Some (Some h2) -> h_handles hs !! s1 = h_handles hs !! s2 -> h1 = h2.
Proof.
  intros (zs&lk&Hsim) Hs1 Hs2 E. destruct (sim_slot _ _ _ _ _ _ _ _ Hsim Hs1) as ([x1 [n1 p1]]&_&->&Hx1&Hin1). destruct (sim_slot _ _ _ _ _ _ _ _ Hsim Hs2) as ([x2 [n2 p2]]&_&->&Hx2&Hin2).
  rewrite Hx1, Hx2 in E. simpl in E. injection E as <-. simpl. pose proof (sm_sim _ _ _ _ _ _ Hsim) as [_ [H1 H2]].
  destruct (H1 _ Hin1) as (r1&m1&Hl1&_). destruct (H1 _ Hin2) as (r2&m2&Hl2&_). simpl in Hl1, Hl2. destruct (loc_fun _ _ _ _ Hl1 _ _ Hl2) as [-> ->].
  f_equal. apply (H2 _ _ r1 r1 Hin1 Hin2 Hl1 Hl2). done.
Qed.

(** ** The heap in every reachable state *)
(** the allocated children of a node *)
Definition kids_of (h : heap) (x : id) : list id := filter (fun y => (hn h !! y ≫= n_par) = Some x) (elements (dom (hn h))).
Lemma elem_of_kids_of h x y : y ∈ kids_of h x <-> exists n, hn h !! y = Some n /\ n_par n = Some x.
Proof.
  unfold kids_of. rewrite elem_of_list_filter, elem_of_elements, elem_of_dom. destruct (hn h !! y) as [n|]; simpl; [|naive_solver].
  split; [intros [? _]; eauto|]. intros (n'&[= <-]&?). split; [done|by eexists].
Qed.
Lemma NoDup_kids_of h x : NoDup (kids_of h x).
Proof. unfold kids_of. apply NoDup_filter, NoDup_elements. Qed.
(** how many of the client's variables hold [x] *)
Definition holders (hs : hst) (x : id) : nat := length (filter (fun o => o = Some x) (h_handles hs)).
Lemma holders_cnt (zs : list (option hpos)) x : length (filter (fun o => o = Some x) (map (fmap fst) zs)) = cnt x (map fst (somes zs)).
Proof.
  induction zs as [|[z|] zs IH]; simpl; [done| |].
  - rewrite filter_cons, cnt_cons. case_decide as E; case_bool_decide as E'; simpl; try congruence; by rewrite IH.
  - rewrite filter_cons. case_decide; [done|]. exact IH.
Qed.
Lemma sim_heap_ok st hs h : simulates st hs h ->
  (forall s x, h_handles hs !! s = Some (Some x) -> is_Some (hn h !! x)) /\
  (forall x n q, hn h !! x = Some n -> n_par n = Some q -> is_Some (hn h !! q)) /\
  (s_leaked st = [] -> forall x n, hn h !! x = Some n -> n_rc n = holders hs x + length (kids_of h x) /\ 0 < n_rc n).
Proof.
  intros (zs&lk&Hsim). pose proof (sm_sim _ _ _ _ _ _ Hsim) as [(K&R&Hsh&_&_&Hct) [H1 _]]. cbn [app] in *. split_and!.
  - intros s x Hs. rewrite (sm_handles _ _ _ _ _ _ Hsim) in Hs. apply lookup_map_fmap in Hs as (z&Hz&->).
    destruct (ct_H _ _ _ _ _ Hct z.1) as [c Hc]. { apply elem_of_list_fmap. exists z. split; [done|]. apply elem_of_app. left. by eapply slot_elem. }
    rewrite P_pc in Hc. destruct (hn h !! z.1); [by eexists|done].
  - intros x n q Hx Hp. destruct (sh_child _ _ Hsh x (core_of n) q) as (cq&_&Hq&_); [by rewrite P_pc, Hx|done|].
    rewrite P_pc in Hq. destruct (hn h !! q); [by eexists|done].
  - intros Hlk x n Hx. rewrite (sm_leaked _ _ _ _ _ _ Hsim) in Hlk. apply fmap_nil_inv in Hlk. subst lk. rewrite app_nil_r in *.
    assert (Hc : is_Some (pc (P h) !! x)) by (rewrite P_pc, Hx; by eexists).
    pose proof (ct_rc _ _ _ _ _ Hct x Hc) as Hr. rewrite P_pr, Hx in Hr. simpl in Hr. injection Hr as Hr.
    assert (HK : K x ≡ₚ kids_of h x).
    { apply NoDup_Permutation; [by eapply sh_nodup|apply NoDup_kids_of|]. intros y. rewrite (sh_K _ _ Hsh), elem_of_kids_of. rewrite P_pc.
      destruct (hn h !! y) as [ny|]; simpl; [|naive_solver]. split; [intros (c&[= <-]&?); eauto|intros (c&[= <-]&?); eauto]. }
    rewrite Hr, HK. unfold holders. rewrite (sm_handles _ _ _ _ _ _ Hsim), holders_cnt. split; [done|].
    destruct (decide (cnt x (map fst (somes zs)) + length (K x) = 0)) as [E|E]; [by apply (ct_live _ _ _ _ _ Hct x Hc) in E|]. rewrite HK in E. lia.
Qed.
(** the sibling list of a node: each one's next is the one after it, in a circle *)
Definition ring (h : heap) (l : list id) : Prop :=
  forall i x y, l !! i = Some x -> l !! (if S i =? length l then 0 else S i) = Some y ->
    exists nx ny, hn h !! x = Some nx /\ hn h !! y = Some ny /\ n_next nx = Some y /\ n_prev ny = Some x.
Lemma chain_lookup (nx pv : id -> option id) l i x y : chain nx pv l -> l !! i = Some x -> l !! S i = Some y -> nx x = Some y /\ pv y = Some x.
Proof.
  revert i. induction l as [|a l IH]; intros i Hc Hi Hj; [done|]. destruct l as [|b l]; [by destruct i|]. destruct Hc as (H1&H2&H3).
  destruct i as [|i]; simpl in *; [naive_solver|]. by apply (IH i).
Qed.
Lemma sim_rings st hs h x n : simulates st hs h -> hn h !! x = Some n -> n_mut n = true ->
  exists l, l ≡ₚ kids_of h x /\ n_first n = head l /\ ring h l /\ StronglySorted lt (map (fun y => default 0 (n_idx <$> hn h !! y)) l).
Proof.
  intros (zs&lk&Hsim) Hx Hm. pose proof (sm_sim _ _ _ _ _ _ Hsim) as [(K&R&Hsh&_&Hl&Hct) _]. exists (K x).
  assert (Hc : pc (P h) !! x = Some (core_of n)) by (by rewrite P_pc, Hx). destruct (lk_mut _ _ _ _ _ Hl x _ Hc Hm) as [Hf Hcirc].
  split_and!.
  - apply NoDup_Permutation; [by eapply sh_nodup|apply NoDup_kids_of|]. intros y. rewrite (sh_K _ _ Hsh), elem_of_kids_of. rewrite P_pc.
    destruct (hn h !! y) as [ny|]; simpl; [|naive_solver]. split; [intros (c&[= <-]&?); eauto|intros (c&[= <-]&?); eauto].
  - rewrite P_pf, Hx in Hf. simpl in Hf. by injection Hf.
  - intros i u v Hu Hv. unfold circ in Hcirc. destruct (K x) as [|k0 l0] eqn:EK; [done|].
    assert (Hj : jn (pn (P h)) u = Some v /\ jn (pv (P h)) v = Some u).
    { eapply (chain_lookup _ _ _ i); [exact Hcirc|by apply lookup_app_l_Some|]. destruct (Nat.eqb_spec (S i) (length (k0 :: l0))) as [E|E].
      - rewrite lookup_app_r by lia. rewrite E, Nat.sub_diag. simpl in Hv. by injection Hv as ->.
      - by apply lookup_app_l_Some. }
    destruct Hj as [Hj1 Hj2]. unfold jn in Hj1, Hj2. rewrite P_pn in Hj1. rewrite P_pv in Hj2.
    destruct (hn h !! u) as [nu|]; [|done]. destruct (hn h !! v) as [nv|]; [|done]. simpl in *. eauto 8.
  - pose proof (sh_sorted _ _ Hsh x _ Hc Hm) as Hso. replace (map (fun y => default 0 (n_idx <$> hn h !! y)) (K x)) with (map (ix (pc (P h))) (K x)); [done|].
    apply map_ext. intros y. unfold ix. rewrite P_pc. by destruct (hn h !! y).
Qed.
End client.

(** ** An allocator *)
(** one above everything in use *)
Definition bump_env : henv := {| nalloc := fun _ D => fresh D; galloc := fun _ L => S (list_max L) |}.
Lemma bump_env_ok : henv_ok bump_env.
Proof.
  split; [intros tm D; apply is_fresh|]. intros tm L Hin. simpl in Hin. pose proof (proj1 (list_max_le L (list_max L)) ltac:(done)) as H.
  rewrite List.Forall_forall in H. apply elem_of_list_In in Hin. specialize (H _ Hin). lia.
Qed.

(** ** What a variable shows *)
Section shows.
Context (env : henv) (Henv : henv_ok env).
(** proof device, no counterpart in the code *)
Definition look_at (m : bool) (t : tree) (p : pos) (x : tree) : look :=
  Look m (last p) (tkind x) (blen (tbefore t p), (blen (tbefore t p) + blen (ttext x))%N) x.
Lemma s_look_at st n p m t x : s_trees st !! n = Some (m, t) -> tsub t p = Some x -> s_look st (@pair nat pos n p) = SOk (look_at m t p x).
Proof. intros Ht Hx. unfold s_look. cbn [fst snd]. rewrite Ht. unfold trange. by rewrite Hx. Qed.
Lemma shows_at prog st os s n p m t x :
  s_run prog s_init = SOk (st, os) -> s_handles st !! s = Some (Some (@pair nat pos n p)) -> s_trees st !! n = Some (m, t) -> tsub t p = Some x ->
  shows env prog s (look_at m t p x).
Proof using Henv. intros E Hs Ht Hx. eapply shows_look; [done|done|exact Hs|]. by apply s_look_at. Qed.
Lemma shows_inv prog st os s l : s_run prog s_init = SOk (st, os) -> shows env prog s l -> full st s ->
  exists n p m t x, s_handles st !! s = Some (Some (@pair nat pos n p)) /\ s_trees st !! n = Some (m, t) /\ tsub t p = Some x /\ l = look_at m t p x.
Proof using Henv.
  intros E Hl [[n p] Hs]. assert (Hwf : wf_st st) by (eapply s_run_wf; [exact wf_init|exact E]). destruct (Hwf s _ Hs) as (m&t&Ht&[x Hx]).
  exists n, p, m, t, x. split_and!; try done. eapply shows_fun; [exact Hl|]. by eapply shows_at.
Qed.
(** a variable whose element and tree are the same before and after shows the same *)
Lemma shows_same prog prog' st os st' os' s n p m t l :
  s_run prog s_init = SOk (st, os) -> s_run prog' s_init = SOk (st', os') ->
  s_handles st !! s = Some (Some (@pair nat pos n p)) -> s_trees st !! n = Some (m, t) ->
  s_handles st' !! s = Some (Some (@pair nat pos n p)) -> s_trees st' !! n = Some (m, t) ->
  shows env prog s l -> shows env prog' s l.
Proof using Henv.
  intros E E' Hs Ht Hs' Ht' Hl. destruct (shows_inv _ _ _ _ _ E Hl ltac:(by eexists)) as (n0&p0&m0&t0&x&H1&H2&H3&->).
  pose proof (eq_trans (eq_sym Hs) H1) as Eq. injection Eq as <- <-. rewrite Ht in H2. injection H2 as <- <-. by eapply shows_at.
Qed.

(** ** Copies share the green tree *)
(** proof device, no counterpart in the code *)
Definition green_in (h : heap) (hs : hst) (s : nat) : option green :=
  match h_handles hs !! s with Some (Some x) => n_grn <$> hn h !! x | _ => None end.
Lemma clone_shares st hs h s n p m t x : simulates st hs h -> s_handles st !! s = Some (Some (@pair nat pos n p)) -> s_trees st !! n = Some (m, t) ->
  tsub t p = Some x -> is_node x = true ->
  (m = false -> wp (hstep env (OCloneForUpdate s) hs) (fun r h' => is_Some (green_in h hs s) /\ green_in h' r.1 (length (h_handles hs)) = green_in h hs s) h) /\
  wp (hstep env (OCloneSubtree s) hs) (fun r h' => is_Some (green_in h hs s) /\ green_in h' r.1 (length (h_handles hs)) = green_in h hs s) h.
Proof using Henv.
  intros (zs&lk&Hsim) Hs Ht Hx Hn. destruct (sim_slot _ _ _ _ _ _ _ _ Hsim Hs) as ([y [n' p']]&_&E&Hy&Hin). cbn [snd fst] in E, Hy. injection E as <- <-.
  pose proof (sm_sim _ _ _ _ _ _ Hsim) as HS. cbn [app] in HS. destruct (simH_alive _ _ _ _ _ HS Hin) as (r&m'&cz&Hl&HT&Hcz&Hm&Hsub). cbn [fst snd] in *.
  rewrite Ht in HT. injection HT as <- ->. rewrite Hx in Hsub. injection Hsub as ->. destruct HS as [Hi _]. rewrite erase_is_node in Hn.
  assert (Hg : green_in h hs s = Some (o_grn cz)).
  { unfold green_in. rewrite Hy. rewrite P_pc in Hcz. destruct (hn h !! y) as [nd|]; [|done]. simpl in *. by injection Hcz as <-. }
  assert (Hres : forall h' u cu, pc (P h') !! u = Some cu -> green_in h' (hadd (Some u) hs) (length (h_handles hs)) = Some (o_grn cu)).
  { intros h' u cu Hu. unfold green_in. simpl. rewrite lookup_app_r, Nat.sub_diag by done. simpl. rewrite P_pc in Hu. destruct (hn h' !! u) as [nd|]; [|done]. simpl in *. by injection Hu as <-. }
  pose proof Hi as (K&R&Hsh&_). rewrite Hg. split.
  - intros ->. cbn [hstep]. rewrite Hy. apply wp_bind, wp_ret, wp_bind.
    eapply wp_mono; [by eapply (wp_clone_for_update env y h); [done|exact Hi|exact Hl|exact Hcz|..]|].
    intros u h' (Hi'&_&r'&Hl'&_&Hgr&_). apply wp_ret. split; [by eexists|]. destruct Hi' as (K'&R'&Hsh'&_).
    destruct (loc_gsub _ _ Hsh' _ _ _ Hl') as (cr'&cu&Hr'&_&Hu&Hgu&_). destruct (loc_gsub _ _ Hsh _ _ _ Hl) as (cr&cz'&Hr&_&Hz'&Hgz&_).
    rewrite Hcz in Hz'. injection Hz' as <-. cbn [fst]. rewrite (Hres _ _ _ Hu). unfold gr in Hgr. rewrite Hr', Hr in Hgr. simpl in Hgr. congruence.
  - cbn [hstep]. rewrite Hy. apply wp_bind, wp_ret, wp_bind.
    eapply wp_mono; [by eapply (wp_clone_subtree env y h); [done|exact Hi|exact Hcz|]|].
    intros u h' (_&_&_&_&Hgr&Hmu). apply wp_ret. split; [by eexists|]. destruct (pc (P h') !! u) as [cu|] eqn:Hu; [|done]. cbn [fst]. rewrite (Hres _ _ _ Hu).
    unfold gr in Hgr. rewrite Hu in Hgr. simpl in Hgr. by rewrite Hgr.
Qed.
End shows.

(** ** One more call *)
Lemma client_step env prog hs os h o : client env prog = (Ok (hs, os), h) ->
  client env (prog ++ [o]) = match hstep env o hs h with (Ok (hs', x), h') => (Ok (hs', os ++ [x]), h') | (Err e, h') => (Err e, h') end.
Proof.
  intros E. unfold client in *. rewrite hrun_app. unfold mbind at 1, hm_bind at 1. rewrite E. simpl. unfold mbind, hm_bind, mret, hm_ret.
  by destruct (hstep env o hs h) as [[[hs' x]|e] h'].
Qed.

(** ** The loop that never ends *)
Lemma textless_owned L : (forall g, g ∈ L -> gtext g = []) -> textless L.
Proof.
  intros H x (g&p&Hg&Hx). specialize (H g Hg). assert (Ho : tsub (erase g) p = Some (erase x)) by (by rewrite erase_gsub, Hx).
  destruct (treplace_text _ _ _ (erase x) Ho) as (r&Ht&_). unfold gtext in *. rewrite H in Ht. symmetry in Ht. apply app_eq_nil in Ht as [_ Ht]. by apply app_eq_nil in Ht as [Ht _].
Qed.

(** for examples: computing what a handle shows *)
Lemma shows_check env prog s l : (match (client env (prog ++ [OLook s])).1 with Ok (_, os) => last os | Err _ => None end) = Some (Some l) -> shows env prog s l.
Proof.
  unfold shows. destruct (client env (prog ++ [OLook s])) as [[[hs os]|e] h]; cbn [fst]; [|done].
  intros [os' ->]%last_Some. by exists os', hs, h.
Qed.
(** ... and that a program is typed *)
Definition fullb (st : sst) (s : nat) : bool := match s_handles st !! s with Some (Some _) => true | _ => false end.
(** proof device, no counterpart in the code *)
Definition nodeb (st : sst) (s : nat) : bool := fullb st s && bool_decide ((is_node <$> elem_at st s) = Some true).
(** proof device, no counterpart in the code *)
Definition gfullb (st : sst) (g : nat) : bool := match s_greens st !! g with Some (Some _) => true | _ => false end.
(** proof device, no counterpart in the code *)
Definition typedb (o : op) (st : sst) : bool :=
  match o with
  | OGreenToken _ s => bool_decide (blen s <= u32_max)%N
  | OGreenNode _ els => forallb (gfullb st) els
  | OGreenDrop g | OGreenLook g => gfullb st g
  | ORoot _ g => match s_greens st !! g with Some (Some (Node _ _)) => true | _ => false end
  | OGreen s | OClone s | ODrop s | ODetach s | OLook s => fullb st s
  | ONav n s => if nav_on_node n then nodeb st s else fullb st s
  | OToNext tok s => if tok then fullb st s else nodeb st s
  | OCloneForUpdate s | OCloneSubtree s | ODetachKids _ s | ODetachByKind _ _ s => nodeb st s
  | OAtRange a b s => nodeb st s && (a <=? b)%N
  | OGreenSplice _ _ els g => match s_greens st !! g with Some (Some (Node _ _)) => true | _ => false end && forallb (gfullb st) els
  | OGreenReplace _ e g => match s_greens st !! g with Some (Some (Node _ _)) => true | _ => false end && gfullb st e
  | OGreenChild _ g => match s_greens st !! g with Some (Some (Node _ _)) => true | _ => false end
  | OSplice s _ _ ins => nodeb st s && bool_decide (NoDup ins) && bool_decide (s ∉ ins) && forallb (fullb st) ins
  end.
(** proof device, no counterpart in the code *)
Fixpoint typed_runb (prog : list op) (st : sst) : bool :=
  match prog with [] => true | o :: prog' => typedb o st && match s_step o st with SOk (st', _) => typed_runb prog' st' | _ => true end end.
Lemma fullb_ok st s : fullb st s = true -> full st s.
Proof. unfold fullb, full. destruct (s_handles st !! s) as [[h|]|]; try done. by exists h. Qed.
Lemma nodeb_ok st s : nodeb st s = true -> holds_node st s.
Proof. unfold nodeb. intros [[h Hh]%fullb_ok He%bool_decide_eq_true]%andb_true_iff. by exists h. Qed.
Lemma gfullb_ok st g : gfullb st g = true -> gfull st g.
Proof. unfold gfullb, gfull. destruct (s_greens st !! g) as [[h|]|]; try done. by exists h. Qed.
Lemma forallb_Forall' {A} (f : A -> bool) (P : A -> Prop) l : (forall x, f x = true -> P x) -> forallb f l = true -> Forall P l.
Proof. intros Hf H. rewrite forallb_forall in H. apply Forall_forall. intros x Hx. apply Hf, H. by apply elem_of_list_In. Qed.
Lemma typedb_ok o st : typedb o st = true -> typed o st.
Proof.
  destruct o; simpl; auto using fullb_ok, nodeb_ok, gfullb_ok.
  - by intros ?%bool_decide_eq_true.
  - apply forallb_Forall', gfullb_ok.
  - destruct (s_greens st !! _) as [[[k cs|]|]|]; try done. by exists k, cs.
  - destruct (nav_on_node _); auto using fullb_ok, nodeb_ok.
  - destruct tok; auto using fullb_ok, nodeb_ok.
  - intros [[[Hn%nodeb_ok Hd%bool_decide_eq_true]%andb_true_iff Hs%bool_decide_eq_true]%andb_true_iff Hf]%andb_true_iff.
    split_and!; try done. revert Hf. apply forallb_Forall', fullb_ok.
  - intros [Hn%nodeb_ok Hab%N.leb_le]%andb_true_iff. done.
  - intros [Hg He]%andb_true_iff. split; [|revert He; apply forallb_Forall', gfullb_ok].
    destruct (s_greens st !! g) as [[[k cs|]|]|]; try done. by exists k, cs.
  - intros [Hg He]%andb_true_iff. split; [|by apply gfullb_ok].
    destruct (s_greens st !! g) as [[[k cs|]|]|]; try done. by exists k, cs.
  - destruct (s_greens st !! g) as [[[k cs|]|]|]; try done. by exists k, cs.
Qed.
Lemma typed_runb_ok prog st : typed_runb prog st = true -> typed_run prog st.
Proof.
  revert st. induction prog as [|o prog IH]; intros st; simpl; [done|]. intros [Ho%typedb_ok Hr]%andb_true_iff. split; [done|].
  destruct (s_step o st) as [[st1 x]| | |]; auto.
Qed.

(** the operation [o], which moves the handle [k] in, panics after [prog]; the panic is
    caught, the handle [k] has been dropped by the unwinding; then looking at [s] is UB *)
Definition use_after_panic (env : henv) (prog : list op) (o : op) (k s : nat) : Prop :=
  exists hs os h x h1 h2,
    client env prog = (Ok (hs, os), h) /\ h_handles hs !! k = Some (Some x) /\
    hstep env o hs h = (Err Panic, h1) /\ h_drop x h1 = (Ok (), h2) /\
    (hstep env (OLook s) hs h2).1 = Err UB.
(** proof device, no counterpart in the code *)
Definition use_after_panicb (env : henv) (prog : list op) (o : op) (k s : nat) : bool :=
  match client env prog with
  | (Ok (hs, _), h) =>
      match h_handles hs !! k with
      | Some (Some x) =>
          match hstep env o hs h with
          | (Err Panic, h1) =>
              match h_drop x h1 with
              | (Ok _, h2) => match (hstep env (OLook s) hs h2).1 with Err UB => true | _ => false end
              | _ => false
              end
          | _ => false
          end
      | _ => false
      end
  | _ => false
  end.
Lemma use_after_panic_check env prog o k s : use_after_panicb env prog o k s = true -> use_after_panic env prog o k s.
Proof.
  unfold use_after_panicb, use_after_panic. destruct (client env prog) as [[[hs os]|] h]; [|done].
  destruct (h_handles hs !! k) as [[x|]|] eqn:Hx; try done. destruct (hstep env o hs h) as [[[]|[]] h1] eqn:H1; try done.
  destruct (h_drop x h1) as [[[]|] h2] eqn:H2; [|done]. destruct ((hstep env (OLook s) hs h2).1) as [|[]] eqn:H3; try done.
  intros _. exists hs, os, h, x, h1, h2. done.
Qed.

(** ** Where a variable is *)
(** variable [s] holds the element [x] at position [p] of [t], which is tree number [n] *)
Definition holds (st : sst) (s n : nat) (m : bool) (t : tree) (p : pos) (x : tree) : Prop :=
  s_handles st !! s = Some (Some (@pair nat pos n p)) /\ s_trees st !! n = Some (m, t) /\ tsub t p = Some x.
Lemma holds_fun st s n m t p x n' m' t' p' x' : holds st s n m t p x -> holds st s n' m' t' p' x' -> n' = n /\ m' = m /\ t' = t /\ p' = p /\ x' = x.
Proof.
  intros (H1&H2&H3) (H1'&H2'&H3'). pose proof (eq_trans (eq_sym H1) H1') as E. injection E as <- <-. rewrite H2 in H2'. injection H2' as <- <-.
  rewrite H3 in H3'. by injection H3' as <-.
Qed.
Lemma full_holds st s : wf_st st -> full st s -> exists n m t p x, holds st s n m t p x.
Proof. intros Hwf [[n p] Hs]. destruct (Hwf s _ Hs) as (m&t&Ht&[x Hx]). by exists n, m, t, p, x. Qed.
Lemma holds_full st s n m t p x : holds st s n m t p x -> full st s.
Proof. intros (H&_). by eexists. Qed.
Lemma holds_node_of st s n m t p k cs : holds st s n m t p (Node k cs) -> holds_node st s.
Proof. intros (H1&H2&H3). eexists. split; [exact H1|]. rewrite (elem_at_eq st s n p m t H1 H2), H3. done. Qed.
Section holds.
Context (env : henv) (Henv : henv_ok env).
Lemma holds_shows prog st os s n m t p x : s_run prog s_init = SOk (st, os) -> holds st s n m t p x -> shows env prog s (look_at m t p x).
Proof using Henv. intros E (H1&H2&H3). by eapply shows_at. Qed.
Lemma shows_holds prog st os s l : s_run prog s_init = SOk (st, os) -> full st s -> shows env prog s l -> exists n m t p x, holds st s n m t p x /\ l = look_at m t p x.
Proof using Henv. intros E Hf Hl. destruct (shows_inv env Henv _ _ _ _ _ E Hl Hf) as (n&p&m&t&x&H1&H2&H3&->). by exists n, m, t, p, x. Qed.
Lemma step_panic prog st os o : s_run prog s_init = SOk (st, os) -> s_step o st = SPanic -> (client env (prog ++ [o])).1 = Err Panic.
Proof using Henv.
  intros E Ho. pose proof (client_sim env (prog ++ [o]) Henv) as H. unfold meets in H. rewrite s_run_app, E in H. simpl in H. rewrite Ho in H. exact H.
Qed.
End holds.
Lemma run_wf prog st os : s_run prog s_init = SOk (st, os) -> wf_st st.
Proof. intros E. eapply s_run_wf; [exact wf_init|exact E]. Qed.
Lemma s_elem_holds st s n m t p x : holds st s n m t p x -> s_elem st (@pair nat pos n p) = SOk (m, x).
Proof. intros (_&H2&H3). unfold s_elem. cbn [fst snd]. by rewrite H2, H3. Qed.
(** adding a tree or a handle *)
Lemma holds_add_tree m0 t0 st s n m t p x : holds st s n m t p x -> holds (add_tree m0 t0 st) s n m t p x.
Proof. intros (H1&H2&H3). split_and!; [done| |done]. simpl. by apply lookup_app_l_Some. Qed.
Lemma holds_add_handle o st s n m t p x : holds st s n m t p x -> holds (add_handle o st) s n m t p x.
Proof. intros (H1&H2&H3). split_and!; [|done|done]. simpl. by apply lookup_app_l_Some. Qed.
Lemma holds_new m t p x st : tsub t p = Some x ->
  holds (add_handle (Some (@pair nat pos (length (s_trees st)) p)) (add_tree m t st)) (length (s_handles st)) (length (s_trees st)) m t p x.
Proof. intros Hx. split_and!; [..|done]; simpl; rewrite lookup_app_r, Nat.sub_diag by done; done. Qed.
Lemma step_clone_for_update st s n t p x : holds st s n false t p x -> is_node x = true ->
  s_step (OCloneForUpdate s) st = SOk (add_handle (Some (@pair nat pos (length (s_trees st)) p)) (add_tree true t st), None).
Proof.
  intros H Hn. pose proof H as (H1&H2&H3). cbn [s_step]. rewrite H1. cbn [of_slot mbind sres_bind]. rewrite (s_elem_holds _ _ _ _ _ _ _ H). cbn [mbind sres_bind]. rewrite Hn. simpl.
  by rewrite H2.
Qed.
Lemma step_clone_for_update_mut st s n t p x : holds st s n true t p x -> is_node x = true -> s_step (OCloneForUpdate s) st = SPanic.
Proof.
  intros H Hn. pose proof H as (H1&H2&H3). cbn [s_step]. rewrite H1. cbn [of_slot mbind sres_bind]. rewrite (s_elem_holds _ _ _ _ _ _ _ H). cbn [mbind sres_bind]. by rewrite Hn.
Qed.
Lemma step_clone_subtree st s n m t p x : holds st s n m t p x -> is_node x = true ->
  s_step (OCloneSubtree s) st = SOk (add_handle (Some (@pair nat pos (length (s_trees st)) [])) (add_tree false x st), None).
Proof.
  intros H Hn. pose proof H as (H1&H2&H3). cbn [s_step]. rewrite H1. cbn [of_slot mbind sres_bind]. rewrite (s_elem_holds _ _ _ _ _ _ _ H). cbn [mbind sres_bind]. by rewrite Hn.
Qed.
Lemma step_detach st s n t p i x : holds st s n true t (p ++ [i]) x -> s_step (ODetach s) st = SOk (after_detach n p i t x st, None).
Proof.
  intros (H1&H2&H3). cbn [s_step]. rewrite H1. cbn [of_slot mbind sres_bind]. rewrite (s_detach_eq _ _ _ _ _ _ H2 H3). done.
Qed.
Lemma step_detach_root st s n t x : holds st s n true t [] x -> s_step (ODetach s) st = SOk (st, None).
Proof. intros (H1&H2&H3). cbn [s_step]. rewrite H1. cbn [of_slot mbind sres_bind]. by rewrite (s_detach_root _ _ _ H2). Qed.
Lemma holds_detach_below st n p i t x s r y : s_trees st !! n = Some (true, t) -> tsub t (p ++ [i]) = Some x -> holds st s n true t (p ++ i :: r) y ->
  holds (after_detach n p i t x st) s (length (s_trees st)) true x r y.
Proof.
  intros Hn Hx (H1&_&H3). pose proof (after_detach_same n p i t x st _ y Hn Hx H3) as H. unfold pos_removed in H. rewrite strip_app, Nat.eqb_refl in H.
  destruct H as (E1&E2&E3). split_and!; [|done|done]. cbn [s_handles after_detach]. rewrite move_lookup, H1. cbn [fmap option_fmap option_map]. do 2 f_equal. exact E1.
Qed.
Lemma holds_detach_rest st n p i t x s q q' y : s_trees st !! n = Some (true, t) -> tsub t (p ++ [i]) = Some x -> holds st s n true t q y -> pos_removed p i q = inr q' ->
  holds (after_detach n p i t x st) s n true (tdelete_child t p i) q' (match strip q p with Some r => tdelete_child y r i | None => y end).
Proof.
  intros Hn Hx (H1&_&H3) Hq. pose proof (after_detach_same n p i t x st _ y Hn Hx H3) as H. rewrite Hq in H.
  destruct H as (E1&E2&E3). split_and!; [|done|done]. cbn [s_handles after_detach]. rewrite move_lookup, H1. cbn [fmap option_fmap option_map]. do 2 f_equal. exact E1.
Qed.
Lemma holds_detach_other st n p i t x s n2 m2 t2 q y : n2 <> n -> holds st s n2 m2 t2 q y -> holds (after_detach n p i t x st) s n2 m2 t2 q y.
Proof.
  intros Hne (H1&H2&H3). destruct (after_detach_other n p i t x st n2 q m2 t2 Hne H2) as [E1 E2]. split_and!; [|done|done].
  cbn [s_handles after_detach]. rewrite move_lookup, H1. cbn [fmap option_fmap option_map]. do 2 f_equal. exact E1.
Qed.

(** attaching the root of another tree *)
Lemma splice_single s i c st n p k cs m t : holds st s n m t p (Node k cs) -> full st c -> s <> c ->
  s_step (OSplice s i i [c]) st = (_ ← panic_unless m; st' ← s_attach s i c st; SOk (st', None)).
Proof.
  intros H [hc Hc] Hne. pose proof H as (H1&_). cbn [s_step]. unfold s_splice. rewrite H1. cbn [of_slot mbind sres_bind]. rewrite (s_elem_holds _ _ _ _ _ _ _ H). cbn [mbind sres_bind].
  assert (Hf : forallb (fun c => bool_decide (is_Some (mjoin (s_handles st !! c)))) [c] = true) by (simpl; rewrite Hc; done).
  rewrite Hf. destruct m; [|done]. simpl. rewrite Nat.ltb_irrefl. simpl. destruct (Nat.eqb_spec c s) as [->|]; [done|]. simpl. by destruct (s_attach s i c st).
Qed.
Lemma step_attach st s c n nc t tc p k cs i : holds st s n true t p (Node k cs) -> holds st c nc true tc [] tc -> n <> nc -> i <= length cs ->
  (blen (ttext (tinsert_child t p i tc)) <= u32_max)%N ->
  s_step (OSplice s i i [c]) st = SOk (del_handle c (after_attach n p i nc true t tc st), None).
Proof.
  intros Hs Hc Hne Hi Hb. assert (Hsc : s <> c). { intros ->. by destruct (holds_fun _ _ _ _ _ _ _ _ _ _ _ _ Hs Hc) as [? _]. }
  rewrite (splice_single s i c st n p k cs true t Hs (holds_full _ _ _ _ _ _ _ Hc) Hsc). cbn [panic_unless mbind sres_bind].
  destruct Hs as (S1&S2&S3). destruct Hc as (C1&C2&C3). by rewrite (s_attach_root_slot s i c st n p t k cs nc tc).
Qed.
Lemma step_attach_panic st s c n nc t tc p k cs i : holds st s n true t p (Node k cs) -> holds st c nc true tc [] tc -> n <> nc ->
  length cs < i \/ (u32_max < blen (ttext (tinsert_child t p i tc)))%N -> s_step (OSplice s i i [c]) st = SPanic.
Proof.
  intros Hs Hc Hne Hb. assert (Hsc : s <> c). { intros ->. by destruct (holds_fun _ _ _ _ _ _ _ _ _ _ _ _ Hs Hc) as [? _]. }
  rewrite (splice_single s i c st n p k cs true t Hs (holds_full _ _ _ _ _ _ _ Hc) Hsc). cbn [panic_unless mbind sres_bind].
  pose proof (s_elem_holds _ _ _ _ _ _ _ Hs) as He. destruct Hs as (S1&S2&S3). destruct Hc as (C1&C2&C3).
  unfold s_attach. rewrite S1. cbn [of_slot mbind sres_bind]. rewrite He. cbn [mbind sres_bind panic_unless]. rewrite C1. cbn [of_slot mbind sres_bind].
  rewrite (s_detach_root _ _ _ C2). cbn [mbind sres_bind]. rewrite S1. cbn [of_slot mbind sres_bind]. rewrite C1. cbn [of_slot mbind sres_bind fst snd].
  rewrite (s_attach_root_eq n p i nc st _ _ _ _ _ _ Hne S2 C2 S3).
  replace ((i <=? length cs) && _) with false; [done|]. symmetry. apply andb_false_iff. destruct Hb; [left; by apply Nat.leb_gt|right; by apply N.leb_gt].
Qed.
Lemma holds_attach_same st n p i nc t tc k cs c s q y : s <> c -> s_trees st !! n = Some (true, t) -> tsub t p = Some (Node k cs) -> i <= length cs -> holds st s n true t q y ->
  holds (del_handle c (after_attach n p i nc true t tc st)) s n true (tinsert_child t p i tc) (pos_inserted p i q) (match strip q p with Some r => tinsert_child y r i tc | None => y end).
Proof.
  intros Hsc Hn Hp Hi (H1&H2&H3). destruct (after_attach_same n p i nc true t tc st k cs q y Hn Hp Hi H3) as (E1&E2&E3). split_and!; [|done|done].
  rewrite del_handle_lookup by done. cbn [s_handles after_attach]. rewrite move_lookup, H1. cbn [fmap option_fmap option_map]. do 2 f_equal. exact E1.
Qed.
Lemma holds_attach_new st n p i nc t tc k cs c s q y : s <> c -> n <> nc -> s_trees st !! n = Some (true, t) -> tsub t p = Some (Node k cs) -> i <= length cs -> holds st s nc true tc q y ->
  holds (del_handle c (after_attach n p i nc true t tc st)) s n true (tinsert_child t p i tc) (p ++ i :: q) y.
Proof.
  intros Hsc Hne Hn Hp Hi (H1&H2&H3). destruct (after_attach_new n p i nc true t tc st k cs q Hne Hn Hp Hi) as (E1&E2&E3). split_and!; [|done|by rewrite E3].
  rewrite del_handle_lookup by done. cbn [s_handles after_attach]. rewrite move_lookup, H1. cbn [fmap option_fmap option_map]. do 2 f_equal. exact E1.
Qed.
Lemma holds_attach_other st n p i nc t tc c s n2 m2 t2 q y : s <> c -> n2 <> n -> n2 <> nc -> holds st s n2 m2 t2 q y ->
  holds (del_handle c (after_attach n p i nc true t tc st)) s n2 m2 t2 q y.
Proof.
  intros Hsc Hne Hnc (H1&H2&H3). destruct (after_attach_other n p i nc true t tc st n2 q m2 t2 Hne Hnc H2) as [E1 E2]. split_and!; [|done|done].
  rewrite del_handle_lookup by done. cbn [s_handles after_attach]. rewrite move_lookup, H1. cbn [fmap option_fmap option_map]. do 2 f_equal. exact E1.
Qed.

(** ** [splice_children] as a sequence of single insertions *)
(** proof device, no counterpart in the code *)
Fixpoint splices (s i : nat) (ins : list nat) : list op :=
  match ins with [] => [] | c :: ins' => OSplice s i i [c] :: splices s (S i) ins' end.
(** proof device, no counterpart in the code *)
Definition sfst {A B} (r : sres (A * B)) : sres A := '(a, _) ← r; SOk a.
Lemma sfst_ret {A B} (r : sres A) (b : B) : sfst (r ≫= fun a => SOk (a, b)) = r.
Proof. by destruct r. Qed.
Lemma holds_mutable st s : wf_st st -> holds_node st s -> exists n m t p k cs, holds st s n m t p (Node k cs).
Proof.
  intros Hwf Hn. pose proof Hn as ([n p]&Hs&_). destruct (wf_node_handle st s _ Hs Hn Hwf) as (m&t&k&cs&Ht&Hp). exists n, m, t, p, k, cs. done.
Qed.
Lemma splices_attach s i ins st n t p k cs : wf_st st -> holds st s n true t p (Node k cs) -> NoDup ins -> s ∉ ins -> Forall (full st) ins ->
  sfst (s_run (splices s i ins) st) = s_attach_all s i ins st.
Proof.
  revert i st n t p k cs. induction ins as [|c ins IH]; intros i st n t p k cs Hwf Hs Hnd Hsn Hf; [done|].
  apply NoDup_cons in Hnd as [Hc Hnd]. apply not_elem_of_cons in Hsn as [Hsc Hsn]. apply Forall_cons in Hf as [Hfc Hf].
  cbn [splices s_run s_attach_all]. rewrite (splice_single s i c st n p k cs true t Hs Hfc Hsc). cbn [panic_unless mbind sres_bind].
  destruct (Nat.eqb_spec c s) as [->|]; [done|]. cbn [negb ill_unless mbind sres_bind].
  assert (Hn : holds_node st s) by (by eapply holds_node_of). pose proof (good_attach True s i c st Hwf (fun _ => conj Hn Hfc) Hn Hsc) as Hg.
  destruct (s_attach s i c st) as [st1| | |] eqn:Ea; cbn [mbind sres_bind]; try done. simpl in Hg. destruct Hg as (Hwf1&Hn1&Hfull).
  destruct (s_attach_mkeep s i c st st1 Hwf Hsc Ea) as (_&(_&K2&_)&_). destruct (holds_mutable st1 s Hwf1 Hn1) as (n1&m1&t1&p1&k1&cs1&H1).
  pose proof (K2 s _ _ (proj1 Hs) (proj1 H1)) as Em. cbn [fst] in Em. rewrite (proj1 (proj2 Hs)), (proj1 (proj2 H1)) in Em. simpl in Em. injection Em as ->.
  rewrite <- (IH (S i) st1 n1 t1 p1 k1 cs1 Hwf1 H1 Hnd Hsn).
  - by destruct (s_run (splices s (S i) ins) st1) as [[st2 xs]| | |].
  - apply Forall_forall. intros c' Hc'. apply Hfull; [by intros ->|]. rewrite Forall_forall in Hf. by apply Hf.
Qed.
(** the child at the start of the range, if there is one, then one after the other *)
Lemma splice_sequence s a b ins st n t p k cs : wf_st st -> holds st s n true t p (Node k cs) -> NoDup ins -> s ∉ ins -> Forall (full st) ins ->
  (~ (a < b /\ a < length cs) -> sfst (s_step (OSplice s a b ins) st) = sfst (s_run (splices s a ins) st)) /\
  (forall d x, a < b -> holds st d n true t (p ++ [a]) x -> sfst (s_step (OSplice s a b ins) st) = sfst (s_run (ODetach d :: splices s a ins) st)).
Proof.
  intros Hwf Hs Hnd Hsn Hf.
  assert (Hgen : sfst (s_step (OSplice s a b ins) st) = (st ← (if (a <? b) && (a <? length cs) then s_detach (@pair nat pos n (p ++ [a])) st else SOk st); s_attach_all s a ins st)).
  { cbn [s_step]. unfold s_splice. rewrite (proj1 Hs). cbn [of_slot mbind sres_bind]. rewrite (s_elem_holds _ _ _ _ _ _ _ Hs). cbn [mbind sres_bind].
    replace (forallb _ ins) with true; [|symmetry; apply forallb_forall; intros c Hc%elem_of_list_In; rewrite Forall_forall in Hf; destruct (Hf c Hc) as [hc E]; rewrite E; by apply bool_decide_eq_true].
    cbn [is_node tchildren fst snd]. change (true && true) with true. cbn [ill_unless mbind sres_bind panic_unless]. destruct ((a <? b) && (a <? length cs)).
    - apply sfst_ret.
    - apply sfst_ret. }
  rewrite Hgen. split.
  - intros Hd. replace ((a <? b) && (a <? length cs)) with false; [cbn [mbind sres_bind]; by rewrite (splices_attach s a ins st n t p k cs)|].
    symmetry. apply andb_false_iff. destruct (Nat.ltb_spec a b), (Nat.ltb_spec a (length cs)); auto. lia.
  - intros d x Hab Hd. assert (Ha : a < length cs).
    { pose proof (proj2 (proj2 Hd)) as E. rewrite tsub_app, (proj2 (proj2 Hs)) in E. simpl in E. destruct (cs !! a) eqn:E'; [by apply lookup_lt_Some in E'|done]. }
    replace ((a <? b) && (a <? length cs)) with true by (symmetry; apply andb_true_iff; split; by apply Nat.ltb_lt).
    cbn [s_run]. rewrite (step_detach st d n t p a x Hd). pose proof Hd as (D1&D2&D3). rewrite (s_detach_eq _ _ _ _ _ _ D2 D3). cbn [mbind sres_bind].
    destruct (after_detach_wf n p a t x st D2 D3 Hwf) as [Hwf1 Hk]. pose proof (pos_removed_self p a) as Ep.
    pose proof (holds_detach_rest st n p a t x s p p _ D2 D3 Hs Ep) as Hs1. pose proof (strip_app p []) as Es. rewrite app_nil_r in Es. rewrite Es in Hs1. cbn [tdelete_child tsub treplace] in Hs1.
    rewrite <- (splices_attach s a ins _ n _ p k _ Hwf1 Hs1 Hnd Hsn).
    + by destruct (s_run (splices s a ins) (after_detach n p a t x st)) as [[st2 xs]| | |].
    + eapply Forall_impl; [exact Hf|]. intros c. by apply keeps_full.
Qed.

(** ** Detaching children in a loop *)
Lemma step_detach_kids tok s st n t p k cs : holds st s n true t p (Node k cs) ->
  s_step (ODetachKids tok s) st = SOk (match first_at (kid_sel tok) cs 0 with Some j => match cs !! j with Some x => after_detach n p j t x st | None => st end | None => st end, None).
Proof.
  intros Hs. cbn [s_step]. unfold s_detach_kids. rewrite (proj1 Hs). cbn [of_slot mbind sres_bind]. unfold s_detach_first. rewrite (s_elem_holds _ _ _ _ _ _ _ Hs). cbn [mbind sres_bind is_node ill_unless tchildren].
  destruct (first_at (kid_sel tok) cs 0) as [j|] eqn:Ej; [|done]. destruct (first_at_lt _ _ _ _ Ej) as (x&Hj&_&_). rewrite Hj. cbn [fst snd].
  assert (Hx : tsub t (p ++ [j]) = Some x). { rewrite tsub_app, (proj2 (proj2 Hs)). simpl. by rewrite Hj. }
  change (s_detach (n, p ++ [j]) st) with (s_detach (@pair nat pos n (p ++ [j])) st). by rewrite (s_detach_eq _ _ _ _ _ _ (proj1 (proj2 Hs)) Hx).
Qed.
Lemma filter_length_le' {A} (f : A -> bool) l : length (List.filter f l) <= length l.
Proof. induction l as [|x l IH]; simpl; [done|]. destruct (f x); simpl; lia. Qed.
Lemma step_detach_by_kind tok m s st n t p k cs : wf_st st -> holds st s n true t p (Node k cs) ->
  let f := kid_sel_kind tok m in
  s_step (ODetachByKind tok m s) st =
  SOk (SS (<[n:=(true, treplace t p (Node k (List.filter (fun c => negb (f c)) cs)))]> (s_trees st) ++ map (pair true) (List.filter f cs))
          (move_handles (kids_handle f cs n (length (s_trees st)) p) (s_handles st)) (s_greens st) (s_leaked st), None).
Proof.
  intros Hwf Hs f. cbn [s_step]. unfold s_detach_by_kind. rewrite (proj1 Hs). cbn [of_slot mbind sres_bind]. rewrite (s_elem_holds _ _ _ _ _ _ _ Hs). cbn [mbind sres_bind tchildren].
  pose proof (s_detach_all_effect f (S (length cs)) n p st t k cs Hwf (proj1 (proj2 Hs)) (proj2 (proj2 Hs))) as H.
  change (s_detach_all (S (length cs)) (kid_sel_kind tok m) (n, p) st) with (s_detach_all (S (length cs)) f (@pair nat pos n p) st). rewrite H; [done|].
  pose proof (filter_length_le' f cs). lia.
Qed.
Lemma filter_nth {A} (f : A -> bool) (cs : list A) j c : cs !! j = Some c -> f c = true -> List.filter f cs !! length (List.filter f (take j cs)) = Some c.
Proof.
  revert j. induction cs as [|x cs IH]; intros j Hj Hf; [done|]. destruct j as [|j]; simpl in *.
  - injection Hj as ->. by rewrite Hf.
  - destruct (f x); simpl; by apply IH.
Qed.

(** ** Calls that do not mutate leave all variables alone *)
Lemma reading_handles o st st' x u h : mutates o = None -> s_step o st = SOk (st', x) -> s_handles st !! u = Some (Some h) -> full st' u -> s_handles st' !! u = Some (Some h).
Proof.
  intros Hm H Hu [h' Hf]. assert (Hadd : forall (o : option (nat * pos)) st0, s_handles st0 !! u = Some (Some h) -> s_handles (add_handle o st0) !! u = Some (Some h)).
  { intros o0 st0 E. simpl. by apply lookup_app_l_Some. }
  assert (Hdel : forall s, s_handles (del_handle s st) !! u = Some (Some h) \/ s_handles (del_handle s st) !! u = Some None).
  { intros s. simpl. destruct (Nat.eq_dec u s) as [->|]; [right; apply list_lookup_insert; by eapply lookup_lt_Some|left; by rewrite list_lookup_insert_ne]. }
  destruct o as [k s|k els|g|m g|s|s|s|nv s|tok s|s|s|s|s a b ins|tok s|tok m s|s|ra rb s|a b els g|i e g|i g|g]; try done; simpl in H.
  - apply bind_ok in H as ([]&_&H). by injection H as <- _.
  - destruct (mapM _ els); [|done]. apply bind_ok in H as ([]&_&H). by injection H as <- _.
  - apply bind_ok in H as (y&_&H). by injection H as <- _.
  - apply bind_ok in H as (y&_&H). apply bind_ok in H as ([]&_&H). injection H as <- _. by apply Hadd.
  - apply bind_ok in H as (y&_&H). apply bind_ok in H as ([]&_&H). by injection H as <- _.
  - apply bind_ok in H as (y&_&H). injection H as <- _. by apply Hadd.
  - apply bind_ok in H as (y&_&H). injection H as <- _. destruct (Hdel s) as [E|E]; [done|]. by rewrite E in Hf.
  - apply bind_ok in H as ([n p]&_&H). cbn [fst snd] in H. destruct (s_trees st !! n) as [[m t]|]; [|done]. apply bind_ok in H as (y&_&H). injection H as <- _. by apply Hadd.
  - apply bind_ok in H as ([n p]&_&H). cbn [fst snd] in H. destruct (s_trees st !! n) as [[m t]|]; [|done]. apply bind_ok in H as (y&_&H). injection H as <- _.
    revert Hf. match goal with |- context [if ?b then _ else _] => destruct b end; cbn [s_handles]; intros Hf; (destruct (Hdel s) as [E|E]; [exact (Hadd (pair n <$> y) _ E)|]);
      apply (lookup_app_l_Some _ [pair n <$> y]) in E; pose proof (eq_trans (eq_sym E) Hf); done.
  - apply bind_ok in H as ([n p]&_&H). apply bind_ok in H as ([m y]&_&H). apply bind_ok in H as ([]&_&H). apply bind_ok in H as ([]&_&H). cbn [fst snd] in H.
    destruct (s_trees st !! n) as [[m' t]|]; [|done]. injection H as <- _. by apply Hadd.
  - apply bind_ok in H as ([n p]&_&H). apply bind_ok in H as ([m y]&_&H). apply bind_ok in H as ([]&_&H). injection H as <- _. by apply Hadd.
  - apply bind_ok in H as ([n p]&_&H). apply bind_ok in H as (l&_&H). by injection H as <- _.
  - apply bind_ok in H as ([n p]&_&H). apply bind_ok in H as ([m y]&_&H). apply bind_ok in H as ([]&_&H). apply bind_ok in H as ([o e]&_&H).
    apply bind_ok in H as ([]&_&H). injection H as <- _. by apply Hadd.
  - apply bind_ok in H as (y&_&H). apply bind_ok in H as ([]&_&H). destruct (mapM _ els); [|done]. apply bind_ok in H as ([]&_&H).
    apply bind_ok in H as ([]&_&H). by injection H as <- _.
  - apply bind_ok in H as (y&_&H). apply bind_ok in H as ([]&_&H). apply bind_ok in H as (z&_&H). apply bind_ok in H as ([]&_&H). by injection H as <- _.
  - apply bind_ok in H as (y&_&H). apply bind_ok in H as ([]&_&H). destruct (_ !! i); [|done]. by injection H as <- _.
  - apply bind_ok in H as (y&_&H). by injection H as <- _.
Qed.

(** ** Histories that leave a tree alone *)
(** at no step of [prog] does a mutating call get a handle of tree [n] *)
Definition leaves_alone (n : nat) (o : op) (st : sst) : Prop :=
  match mutates o with
  | Some (slots, _) => forall s h, s ∈ slots -> s_handles st !! s = Some (Some h) -> h.1 <> n
  | None => True
  end.
(** proof device, no counterpart in the code *)
Fixpoint never_mutates (n : nat) (prog : list op) (st : sst) : Prop :=
  match prog with
  | [] => True
  | o :: prog' => leaves_alone n o st /\ match s_step o st with SOk (st', _) => never_mutates n prog' st' | _ => True end
  end.
Lemma leaves_alone_step n o st st' x u m t p y : holds st u n m t p y -> leaves_alone n o st -> s_step o st = SOk (st', x) ->
  full st' u -> holds st' u n m t p y.
Proof.
  intros (H1&H2&H3) Ha Ho Hf. unfold leaves_alone in Ha. pose proof (lookup_lt_Some _ _ _ H2) as Hlt. destruct (mutates o) as [[slots used]|] eqn:Hm.
  - destruct (mutation_frame o st st' x slots used Hm Ho) as (_&F2&F3&F4&_).
    assert (Hn : ~ (length (s_trees st) <= n \/ exists s h, s ∈ slots /\ s_handles st !! s = Some (Some h) /\ n = h.1)).
    { intros [?|(s&h&E1&E2&E3)]; [lia|]. by apply (Ha s h E1 E2). }
    split_and!; [|by rewrite F2|done]. destruct (decide (u ∈ used)) as [Hu|Hu].
    + exfalso. apply (Ha u (@pair nat pos n p)); [|exact H1|done]. destruct o; try done; simpl in Hm; injection Hm as <- <-; try (by apply elem_of_nil in Hu). by right.
    + exact (F3 u (@pair nat pos n p) Hu H1 Hn).
  - split_and!; [|by eapply reading_frame|done]. exact (reading_handles o st st' x u _ Hm Ho H1 Hf).
Qed.
Lemma never_mutates_run n prog st st' os u m t p y : wf_st st -> holds st u n m t p y -> never_mutates n prog st -> s_run prog st = SOk (st', os) ->
  full st' u -> holds st' u n m t p y.
Proof.
  revert st os. induction prog as [|o prog IH]; intros st os Hwf Hh Hn H Hf; simpl in H; [by injection H as <- <-|].
  apply bind_ok in H as ([st1 x]&H1&H). apply bind_ok in H as ([st2 xs]&H2&H). injection H as <- <-. destruct Hn as [Ha Hn]. rewrite H1 in Hn.
  assert (Hwf1 : wf_st st1). { pose proof (typed_step o st Hwf) as Hg. by rewrite H1 in Hg. }
  assert (Hf1 : full st1 u).
  { destruct (run_mkeep _ _ _ _ Hwf1 H2) as [(_&_&K3&_) _]. destruct Hf as [h Hh2]. apply (K3 u h Hh2). pose proof (step_len _ _ _ _ H1).
    destruct Hh as (Hh&_). apply lookup_lt_Some in Hh. lia. }
  eapply IH; [exact Hwf1| |exact Hn|exact H2|exact Hf]. by eapply leaves_alone_step.
Qed.
(** proof device, no counterpart in the code *)
Fixpoint never_mutatesb (n : nat) (prog : list op) (st : sst) : bool :=
  match prog with
  | [] => true
  | o :: prog' =>
      match mutates o with
      | Some (slots, _) => forallb (fun s => match s_handles st !! s with Some (Some h) => negb (h.1 =? n) | _ => true end) slots
      | None => true
      end && match s_step o st with SOk (st', _) => never_mutatesb n prog' st' | _ => true end
  end.
Lemma never_mutatesb_ok n prog st : never_mutatesb n prog st = true -> never_mutates n prog st.
Proof.
  revert st. induction prog as [|o prog IH]; intros st; simpl; [done|]. intros [Ha Hr]%andb_true_iff. split; [|destruct (s_step o st) as [[]| | |]; auto].
  unfold leaves_alone. destruct (mutates o) as [[slots used]|]; [|done]. intros s h Hs Hh E. rewrite forallb_forall in Ha.
  specialize (Ha s (proj1 (elem_of_list_In _ _) Hs)). rewrite Hh, E, Nat.eqb_refl in Ha. done.
Qed.

(** proof device, no counterpart in the code *)
Fixpoint never_from_rootb (prog : list op) (st : sst) : bool :=
  match prog with
  | [] => true
  | o :: prog' =>
      match o with
      | OToNext _ s => match s_handles st !! s with
                       | Some (Some (n, [])) => match s_trees st !! n with Some (false, _) => false | _ => true end
                       | _ => true end
      | _ => true
      end && match s_step o st with SOk (st', _) => never_from_rootb prog' st' | _ => true end
  end.
Lemma never_from_rootb_ok prog st : never_from_rootb prog st = true -> never_from_root prog st.
Proof.
  revert st. induction prog as [|o prog IH]; intros st; simpl; [done|]. intros [Ha Hr]%andb_true_iff. split; [|destruct (s_step o st) as [[]| | |]; auto].
  destruct o; try done. simpl. intros n t Hs Ht. rewrite Hs, Ht in Ha. done.
Qed.

(** ** Attaching the root of a tree below itself, with any bound on the loop *)
Lemma cyclic_any_fuel env (Z : Prop) st hs h s c n t p k cs i x y fuel : henv_ok env -> simulates st hs h ->
  holds st s n true t p (Node k cs) -> holds st c n true t [] t -> h_handles hs !! s = Some (Some x) -> h_handles hs !! c = Some (Some y) ->
  (Z -> textless (po (P h)) /\ i <= length cs) ->
  wpx (h_attach_with env (h_respine_loop env fuel) x i y) (fun _ _ => False) (fun e => e = Diverge \/ e = Panic /\ ~ Z) h.
Proof.
  intros Henv (zs&lk&Hsim) (S1&S2&S3) (C1&C2&C3) Hx Hy HZ. pose proof (sm_sim _ _ _ _ _ _ Hsim) as HS. cbn [app] in HS.
  destruct (sim_slot _ _ _ _ _ _ _ _ Hsim S1) as ([x' [n1 p1]]&_&E1&Hx'&Hin1). destruct (sim_slot _ _ _ _ _ _ _ _ Hsim C1) as ([y' [n2 p2]]&_&E2&Hy'&Hin2).
  cbn [snd fst] in E1, E2, Hx', Hy'. injection E1 as <- <-. injection E2 as <- <-. rewrite Hx in Hx'. injection Hx' as <-. rewrite Hy in Hy'. injection Hy' as <-.
  destruct (simH_alive _ _ _ _ _ HS Hin1) as (r1&m1&cq&Hl1&HT1&Hcq&Hm1&Hs1). destruct (simH_alive _ _ _ _ _ HS Hin2) as (r2&m2&cx&Hl2&HT2&Hcx&Hm2&Hs2). cbn [fst snd] in *.
  assert (r1 = r2) as ->. { destruct HS as [_ [_ H2]]. by apply (H2 _ _ r1 r2 Hin1 Hin2 Hl1 Hl2). }
  destruct (loc_fun_root _ _ _ Hl2) as [-> Hroot]. rewrite S2 in HT1. injection HT1 as <- Et. rewrite C2 in HT2. injection HT2 as <- _. rewrite <- Et, S3 in Hs1. injection Hs1 as Hs1.
  eapply (wpx_attach_cyclic env Z (h_respine_loop env fuel) x i y h _ _ cq cx p); try done; [by eexists| |by apply HS|by apply Hroot|].
  - intros Hz. destruct (HZ Hz) as [H1 H2]. split; [done|]. destruct (o_grn cq) as [a k' tl gs|]; [|done]. simpl in Hs1. injection Hs1 as _ ->. unfold kids. simpl. rewrite map_length in *. done.
  - rewrite <- erase_is_node. by rewrite <- Hs1.
Qed.
