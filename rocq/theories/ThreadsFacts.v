(** * Lemmas on threads sharing green trees *)
From Verif Require Export Threads.
Local Open Scope nat_scope.

(** ** Single memory operations on the invariant of GreenStoreFacts.v *)
(** other references remain *)
Lemma drop_some m L g n :
  ginv m (g :: L) -> m !! gaddr g = Some (S (S n), gcell_of g) -> ginv (<[gaddr g := (S n, gcell_of g)]> m) L.
Proof.
  intros [H1 H2 H3 H4] Hn. apply Forall_cons in H1 as [Hg HL].
  pose proof (H2 _ _ _ Hn) as Hcnt. simpl in Hcnt. rewrite occ_cons, decide_True in Hcnt by done.
  assert (Hmono : forall x, stored m x -> stored (<[gaddr g:=(S n, gcell_of g)]> m) x).
  { intros x. apply stored_mono. intros a n' c Ha. destruct (decide (a = gaddr g)) as [->|Hne].
    - rewrite lookup_insert. rewrite Hn in Ha. injection Ha as <- <-. eauto.
    - rewrite lookup_insert_ne by done. eauto. }
  split.
  - eapply Forall_impl; [done|]. apply Hmono.
  - intros a n' c Ha. rewrite occ_app, (occ_perm _ _ _ (refs_count _ _ _ _ _ Hn)), <-occ_app.
    destruct (decide (gaddr g = a)) as [<-|Hne].
    + rewrite lookup_insert in Ha. injection Ha as <- _. lia.
    + rewrite lookup_insert_ne in Ha by done. apply H2 in Ha. simpl in Ha.
      by rewrite occ_cons, decide_False in Ha by done.
  - intros a n' c Ha. destruct (decide (gaddr g = a)) as [<-|Hne].
    + exists g. split; [done|]. by apply Hmono.
    + rewrite lookup_insert_ne in Ha by done. destruct (H3 _ _ _ Ha) as (x&?&?). eauto.
  - intros a c Ha. destruct (decide (gaddr g = a)) as [<-|Hne].
    + by rewrite lookup_insert in Ha.
    + rewrite lookup_insert_ne in Ha by done. by eapply H4.
Qed.
(** a dead cell goes *)
Lemma free_dead m L a c : ginv m L -> m !! a = Some (0, c) -> ginv (delete a m) L.
Proof.
  intros [I1 I2 I3 I4] Hdead.
  assert (Hmono : forall x, stored m x -> stored (delete a m) x).
  { intros x. apply stored_mono. intros b n d Hd. rewrite lookup_delete_ne; [eauto|]. intros <-. congruence. }
  assert (Hr2 : refs m ≡ₚ refs (delete a m)).
  { pose proof (refs_delete _ _ _ _ Hdead) as Hp. by rewrite (I4 _ _ Hdead) in Hp. }
  split.
  - eapply Forall_impl; [done|]. apply Hmono.
  - intros b n d Hd. rewrite lookup_delete_Some in Hd. destruct Hd as [_ Hd]. rewrite (I2 _ _ _ Hd).
    rewrite !occ_app. by rewrite (occ_perm _ _ _ Hr2).
  - intros b n d Hd. rewrite lookup_delete_Some in Hd. destruct Hd as [_ Hd].
    destruct (I3 _ _ _ Hd) as (x&?&?). eauto.
  - intros b d Hd. rewrite lookup_delete_Some in Hd. destruct Hd as [_ Hd]. eauto.
Qed.
(** construction from owned handles only reads *)
Lemma fill_own pr els : forall o h, Forall (stored (gmm h)) els ->
  gs_fill pr o (map Own (map gaddr els)) h =
    (Ok (map (fun c => (c.1, gaddr c.2)) (accepted pr o els).1,
         match (accepted pr o els).2 with inl t => inl t | inr rest => inr (map Own (map gaddr rest)) end), h).
Proof.
  induction els as [|g els IH]; intros o h HF; simpl; [done|].
  apply Forall_cons in HF as [Hg HF]. unfold mbind, gsm_bind, mret, gsm_ret. rewrite (gs_cell_ok h g Hg), ctext_len_of.
  change (res_bind N N (λ l, add32 pr o l) (green_text_len g)) with (l ← green_text_len g; add32 pr o l).
  destruct (l ← green_text_len g; add32 pr o l) as [o'|er] eqn:Eo; [|done].
  rewrite (IH o' h HF). destruct (accepted pr o' els) as [w [t|rest]]; done.
Qed.

(** ** Threads with the elements behind their pointers *)
(** proof device, no counterpart in the code *)
Inductive gframe := GDrop (g : green) | GFree (a : addr).
(** proof device, no counterpart in the code *)
Definition frame_of (f : gframe) : frame := match f with GDrop g => FDrop (gaddr g) | GFree a => FFree a end.
(** proof device, no counterpart in the code *)
Notation gthr := (list (option green) * list gframe)%type.
(** proof device, no counterpart in the code *)
Definition thr_of (g : gthr) : gthread := GTH (map (option_map gaddr) g.1) (map frame_of g.2).
(** proof device, no counterpart in the code *)
Definition env_of (g : gthr) : list (option tree) := map (option_map erase) g.1.
(** proof device, no counterpart in the code *)
Definition pend (k : list gframe) : list green := filter_map (fun f => match f with GDrop g => Some g | GFree _ => None end) k.
(** proof device, no counterpart in the code *)
Definition frees (k : list gframe) : list addr := filter_map (fun f => match f with GFree a => Some a | GDrop _ => None end) k.
(** proof device, no counterpart in the code *)
Definition held (g : gthr) : list green := hs_of g.1 ++ pend g.2.
(** proof device, no counterpart in the code *)
Definition dead_are (m : gmem) (F : list addr) : Prop := forall a, (exists c, m !! a = Some (0, c)) <-> a ∈ F.
(** proof device, no counterpart in the code *)
Record trel (pr : profile) (st : gcs) (sst : tst) (gs : list gthr) (lkg : list green) : Prop := {
  tr_thr : gc_thr st = map thr_of gs;
  tr_spec : sst = (map env_of gs, map erase lkg);
  tr_inv : ginv (gmm (gc_mem st)) (concat (map held gs) ++ lkg);
  tr_dead : dead_are (gmm (gc_mem st)) (concat (map (fun g => frees g.2) gs));
  tr_nodup : NoDup (concat (map (fun g => frees g.2) gs));
  tr_wf : Forall (fun g => nodes_wf pr (hs_of g.1)) gs
}.

(** proof device, no counterpart in the code *)
Local Instance ginv_proper m : Proper ((≡ₚ) ==> iff) (ginv m).
Proof. intros L L' HL. split; apply ginv_perm; done. Qed.
Lemma concat_upd {A B} (f : A -> list B) (l : list A) t x :
  l !! t = Some x -> exists R, concat (map f l) ≡ₚ f x ++ R /\ forall y, concat (map f (<[t := y]> l)) ≡ₚ f y ++ R.
Proof.
  revert t. induction l as [|z l IH]; intros [|t]; simpl; [done|done| |].
  - intros [= ->]. exists (concat (map f l)). done.
  - intros H. destruct (IH t H) as (R&H1&H2). exists (f z ++ R). split.
    + rewrite H1. rewrite !app_assoc. apply Permutation_app_tail. apply Permutation_app_comm.
    + intros y. rewrite (H2 y). rewrite !app_assoc. apply Permutation_app_tail. apply Permutation_app_comm.
Qed.
Lemma pend_app k1 k2 : pend (k1 ++ k2) = pend k1 ++ pend k2.
Proof. unfold pend. induction k1 as [|[g|a] k1 IH]; simpl; [done| |done]. by rewrite IH. Qed.
Lemma frees_app k1 k2 : frees (k1 ++ k2) = frees k1 ++ frees k2.
Proof. unfold frees. induction k1 as [|[g|a] k1 IH]; simpl; [done|done|]. by rewrite IH. Qed.
Lemma pend_drops gs : pend (map GDrop gs) = gs.
Proof. unfold pend. induction gs as [|g gs IH]; simpl; [done|]. by rewrite IH. Qed.
Lemma frees_drops gs : frees (map GDrop gs) = [].
Proof. unfold frees. by induction gs as [|g gs IH]. Qed.

(** one thread changes *)
Lemma trel_thread pr st sst gs lkg t g0 :
  trel pr st sst gs lkg -> gs !! t = Some g0 ->
  exists R F, ginv (gmm (gc_mem st)) (held g0 ++ R ++ lkg) /\ dead_are (gmm (gc_mem st)) (frees g0.2 ++ F) /\
    NoDup (frees g0.2 ++ F) /\ nodes_wf pr (hs_of g0.1) /\
    forall g' mem' lkg', ginv (gmm mem') (held g' ++ R ++ lkg') -> dead_are (gmm mem') (frees g'.2 ++ F) ->
      NoDup (frees g'.2 ++ F) -> nodes_wf pr (hs_of g'.1) ->
      trel pr (GCS mem' (<[t := thr_of g']> (gc_thr st))) (<[t := env_of g']> sst.1, map erase lkg') (<[t := g']> gs) lkg'.
Proof.
  intros [T1 T2 T3 T4 T5 T6] Ht.
  destruct (concat_upd held gs t g0 Ht) as (R&R1&R2).
  destruct (concat_upd (fun g : gthr => frees g.2) gs t g0 Ht) as (F&F1&F2).
  exists R, F. split; [|split; [|split; [|split]]].
  - eapply ginv_perm; [|exact T3]. by rewrite R1, app_assoc.
  - intros a. rewrite (T4 a). by rewrite F1.
  - by rewrite <-F1.
  - rewrite Forall_lookup in T6. by apply (T6 t).
  - intros g' mem' lkg' Hi Hd Hn Hw. split.
    + cbn [gc_thr]. rewrite T1. symmetry. apply (list_fmap_insert thr_of).
    + rewrite T2. cbn [fst]. f_equal. symmetry. apply (list_fmap_insert env_of).
    + cbn [gc_mem]. eapply ginv_perm; [|exact Hi]. by rewrite (R2 g'), app_assoc.
    + cbn [gc_mem]. intros a. rewrite (Hd a). by rewrite (F2 g').
    + by rewrite (F2 g').
    + by apply Forall_insert.
Qed.

Lemma dead_same m m' F : dead_are m F -> (forall a, (exists c, m !! a = Some (0, c)) <-> (exists c, m' !! a = Some (0, c))) -> dead_are m' F.
Proof. intros H Hs a. by rewrite <-(Hs a). Qed.
Lemma dead_live m F a n c n' c' : dead_are m F -> m !! a = Some (S n, c) -> dead_are (<[a := (S n', c')]> m) F.
Proof.
  intros H Ha. eapply dead_same; [done|]. intros b. destruct (decide (a = b)) as [<-|Hne].
  - rewrite lookup_insert, Ha. split; intros [? [=]].
  - by rewrite lookup_insert_ne.
Qed.
Lemma dead_fresh m F a n c : dead_are m F -> m !! a = None -> dead_are (<[a := (S n, c)]> m) F.
Proof.
  intros H Ha. eapply dead_same; [done|]. intros b. destruct (decide (a = b)) as [<-|Hne].
  - rewrite lookup_insert, Ha. split; intros [? [=]].
  - by rewrite lookup_insert_ne.
Qed.
Lemma dead_perm m F F' : F ≡ₚ F' -> dead_are m F -> dead_are m F'.
Proof. intros HF H a. rewrite (H a). by rewrite HF. Qed.

Lemma stored_in m L g : ginv m L -> g ∈ L -> stored m g.
Proof. intros Hi Hg. pose proof (gi_handles _ _ Hi) as HF. rewrite Forall_forall in HF. by apply HF. Qed.

Section sim.
Context (al : nat -> gset addr -> addr) (pr : profile) (Hal : galloc_ok al).

(** the operations with what they do to dead cells *)
Lemma clone_step st L F g : ginv (gmm st) L -> dead_are (gmm st) F -> stored (gmm st) g ->
  exists st', gs_clone (gaddr g) st = (Ok (), st') /\ ginv (gmm st') (g :: L) /\ dead_are (gmm st') F.
Proof.
  intros Hi Hd Hg. destruct (gs_clone_ok st L g Hi Hg) as (st'&E&Hi'&_&_). exists st'. split; [done|]. split; [done|].
  apply stored_inv in Hg as [[n Hn] _]. unfold gs_clone in E. rewrite Hn in E. injection E as <-. simpl.
  by eapply dead_live.
Qed.
Lemma alloc_step st L F g : ginv (gmm st) (kids g ++ L) -> dead_are (gmm st) F -> gaddr g = al (gck st) (dom (gmm st)) ->
  exists st', gs_alloc al (gcell_of g) st = (Ok (gaddr g), st') /\ ginv (gmm st') (g :: L) /\ dead_are (gmm st') F.
Proof using Hal.
  intros Hi Hd Ha. destruct (gs_alloc_ok al st L g Hal Hi Ha) as (st'&E&Hi'&_&_). exists st'. split; [done|]. split; [done|].
  unfold gs_alloc in E. injection E as _ <-. simpl. apply dead_fresh; [done|]. apply not_elem_of_dom. apply Hal.
Qed.
(** construction against the specification *)
Lemma new_step k els st L F :
  ginv (gmm st) (els ++ L) -> dead_are (gmm st) F -> nodes_wf pr els ->
  (exists st' g, t_new al pr k (map gaddr els) st = (Ok (inl (gaddr g)), st') /\ gbuildable pr (map erase els) = true /\
     erase g = Node k (map erase els) /\ nodes_wf pr [g] /\ ginv (gmm st') (g :: L) /\ dead_are (gmm st') F) \/
  (exists st' g rest, t_new al pr k (map gaddr els) st = (Ok (inr (map gaddr rest)), st') /\ gbuildable pr (map erase els) = false /\
     erase g = Node k (gwritten pr [] (map erase els)) /\ ginv (gmm st') (g :: rest ++ L) /\ dead_are (gmm st') F).
Proof using Hal.
  intros Hi Hd Hw.
  assert (HF : Forall (stored (gmm st)) els).
  { pose proof (gi_handles _ _ Hi) as HF. by apply Forall_app in HF as [? _]. }
  set (a := al (gck st) (dom (gmm st))).
  destruct (accepted_written pr els 0 []) as [H1 H2]; [done|by destruct pr|done|]. simpl in H1, H2.
  pose proof (accepted_assign pr 0 els) as Hacc.
  unfold t_new, mbind, gsm_bind. rewrite (fill_own pr els 0 st HF).
  destruct (accepted pr 0 els) as [w [t|rest]]; cbn [fst snd] in *.
  - left.
    assert (Hels : map snd w = els) by by apply assign_offsets_Ok_fits in Hacc as [<- _].
    destruct (alloc_step st L F (GNode a k t w)) as (st'&E&Hi'&Hd'); [by unfold kids; simpl; rewrite Hels|done|done|].
    exists st', (GNode a k t w). split.
    { change (GCNode k t (map (λ c : N * green, (c.1, gaddr c.2)) w)) with (gcell_of (GNode a k t w)). by rewrite E. }
    split; [done|]. assert (He : erase (GNode a k t w) = Node k (map erase els)).
    { simpl. f_equal. by rewrite <-Hels, map_map. }
    split; [done|]. split; [|done].
    intros -> e ->%elem_of_list_singleton _.
    assert (Hn : green_new Checked a k els = Ok (GNode a k t w)) by (unfold green_new; by rewrite Hacc).
    pose proof (green_new_pending a k els (Hw eq_refl)) as Hp. destruct (_ <=? _)%N; [|congruence].
    destruct Hp as (g&Hg&?). congruence.
  - right. destruct Hacc as (_&Hels&_).
    destruct (alloc_step st (rest ++ L) F (GNode a k 0 w)) as (st'&E&Hi'&Hd'); [|done|done|].
    { unfold kids. simpl. by rewrite app_assoc, <-Hels. }
    exists st', (GNode a k 0 w), rest. split.
    { change (GCNode k 0 (map (λ c : N * green, (c.1, gaddr c.2)) w)) with (gcell_of (GNode a k 0 w)). rewrite E.
      unfold mret, gsm_ret. by rewrite map_map, map_id. }
    split; [done|]. split; [|done]. rewrite H1. simpl. by rewrite map_map.
Qed.
(** one step of a drop *)
Lemma drop_step st L F g :
  ginv (gmm st) (g :: L) -> dead_are (gmm st) F -> NoDup F ->
  exists st' fs, t_drop (gaddr g) st = (Ok (map frame_of fs), st') /\ ginv (gmm st') (pend fs ++ L) /\
    dead_are (gmm st') (frees fs ++ F) /\ NoDup (frees fs ++ F).
Proof.
  intros Hi Hd Hnd. pose proof (stored_in _ _ g Hi ltac:(left)) as Hg. pose proof Hg as [[n Hn] _]%stored_inv.
  unfold t_drop. rewrite Hn. destruct n as [|n].
  - eexists _, (map GDrop (kids g) ++ [GFree (gaddr g)]). split.
    { rewrite map_app, map_map, cslots_of. simpl. by rewrite map_map. }
    rewrite pend_app, frees_app, pend_drops, frees_drops. simpl. rewrite app_nil_r. split; [by apply drop_last|].
    assert (Hnot : gaddr g ∉ F). { intros [c Hc]%Hd. congruence. }
    split; [|by constructor]. intros a. rewrite elem_of_cons, <-(Hd a). destruct (decide (gaddr g = a)) as [<-|Hne].
    + rewrite lookup_insert. naive_solver.
    + rewrite lookup_insert_ne by done. naive_solver.
  - eexists _, []. split; [done|]. simpl. split; [by eapply drop_some|]. split; [|done]. by eapply dead_live.
Qed.
Lemma free_step st L F a :
  ginv (gmm st) L -> dead_are (gmm st) (a :: F) -> NoDup (a :: F) ->
  exists st', t_free a st = (Ok (), st') /\ ginv (gmm st') L /\ dead_are (gmm st') F.
Proof.
  intros Hi Hd [Hna Hnd]%NoDup_cons. assert (exists c, gmm st !! a = Some (0, c)) as [c Hc] by (apply Hd; left).
  unfold t_free. rewrite Hc. eexists. split; [done|]. simpl. split; [by eapply free_dead|].
  intros b. destruct (decide (a = b)) as [<-|Hne].
  - rewrite lookup_delete. naive_solver.
  - rewrite lookup_delete_ne by done. rewrite (Hd b), elem_of_cons. naive_solver.
Qed.

Lemma t_peek_rel st sst gs lkg o h : trel pr st sst gs lkg ->
  match ts_peek sst o h with
  | Some x => exists g, x = erase g /\ t_peek st o h = Some (gaddr g) /\ g ∈ concat (map held gs) /\ nodes_wf pr [g]
  | None => True
  end.
Proof.
  intros [T1 T2 T3 T4 T5 T6]. unfold ts_peek, t_peek. rewrite T1, T2. cbn [fst].
  change (map env_of gs) with (env_of <$> gs). change (map thr_of gs) with (thr_of <$> gs). rewrite !list_lookup_fmap.
  destruct (gs !! o) as [g0|] eqn:Eo; [|done]. cbn [fmap option_fmap option_map]. unfold env_of. cbn [thr_of gt_env].
  rewrite !g_peek_map. destruct (g_peek h g0.1) as [g|] eqn:Eh; [|done]. simpl. exists g. split; [done|]. split; [done|].
  apply hs_of_peek in Eh. split.
  - apply elem_of_list_In, in_concat. exists (held g0). split.
    + apply in_map_iff. exists g0. split; [done|]. apply elem_of_list_In. by eapply elem_of_list_lookup_2.
    + apply elem_of_list_In. unfold held. apply elem_of_app. by left.
  - rewrite Forall_lookup in T6. eapply nodes_wf_sub; [|by apply (T6 o)]. intros x ->%elem_of_list_singleton. done.
Qed.

Lemma held_app genv x k : held (genv ++ [Some x], k) ≡ₚ x :: held (genv, k).
Proof. unfold held. simpl. rewrite hs_of_app. simpl. rewrite <-app_assoc. simpl. by rewrite <-Permutation_middle. Qed.
Lemma held_none genv k : held (genv ++ [None], k) = held (genv, k).
Proof. unfold held. simpl. rewrite hs_of_app. simpl. by rewrite app_nil_r. Qed.
Lemma wf_app genv x : nodes_wf pr (hs_of genv) -> nodes_wf pr [x] -> nodes_wf pr (hs_of (genv ++ [Some x])).
Proof. intros H1 H2. rewrite hs_of_app. by apply nodes_wf_app. Qed.
Lemma wf_none genv : nodes_wf pr (hs_of genv) -> nodes_wf pr (hs_of (genv ++ [None])).
Proof. intros H1. rewrite hs_of_app. simpl. by rewrite app_nil_r. Qed.
Lemma thr_of_app genv x k : thr_of (genv ++ [x], k) = GTH (gt_env (thr_of (genv, k)) ++ [option_map gaddr x]) (gt_stk (thr_of (genv, k))).
Proof. unfold thr_of. simpl. by rewrite map_app. Qed.
Lemma env_of_app genv x k : env_of (genv ++ [x], k) = env_of (genv, k) ++ [option_map erase x].
Proof. unfold env_of. simpl. by rewrite map_app. Qed.

Lemma t_step_ok t o st sst gs lkg b sst' :
  trel pr st sst gs lkg -> ts_step pr t o sst = Some (b, sst') ->
  exists st' gs' lkg', t_step al pr t o st = Ok (b, st') /\ trel pr st' sst' gs' lkg'.
Proof using Hal.
  intros HT. pose proof HT as [T1 T2 _ _ _ _]. unfold ts_step, t_step.
  assert (Els : sst.1 !! t = env_of <$> gs !! t) by (rewrite T2; apply (list_lookup_fmap env_of)).
  assert (Elt : gc_thr st !! t = thr_of <$> gs !! t) by (rewrite T1; apply (list_lookup_fmap thr_of)).
  rewrite Els, Elt. destruct (gs !! t) as [[genv k]|] eqn:Et; [|done]. cbn [fmap option_fmap option_map].
  destruct (trel_thread pr st sst gs lkg t (genv, k) HT Et) as (R&F&Hi&Hd&Hnd&Hw&Hput). cbn [fst snd] in *.
  destruct o as [kd s|kd hs|o h|o h i|o h|h|h u|].
  - (* token *)
    intros [= <- <-]. set (g := GTok (al (gck (gc_mem st)) (dom (gmm (gc_mem st)))) kd s).
    destruct (alloc_step (gc_mem st) (held (genv, k) ++ R ++ lkg) (frees k ++ F) g) as (m&E&Hi'&Hd'); [done|done|done|].
    change (gs_token al kd s (gc_mem st)) with (gs_alloc al (gcell_of g) (gc_mem st)). rewrite E.
    exists (GCS m (<[t := thr_of (genv ++ [Some g], k)]> (gc_thr st))), (<[t := (genv ++ [Some g], k)]> gs), lkg. split; [by rewrite thr_of_app|].
    assert (Hs2 : sst.2 = map erase lkg) by by rewrite T2. rewrite Hs2.
    change (Some (Token kd s)) with (option_map erase (Some g)).
    rewrite <-(env_of_app genv (Some g) k). apply Hput; [|done|done|].
    + rewrite held_app. done.
    + apply wf_app; [done|]. intros _ e ->%elem_of_list_singleton. done.
  - (* node *)
    unfold env_of at 1. cbn [thr_of gt_env fst]. rewrite !g_move_map.
    destruct (g_move hs genv) as [[els genv']|] eqn:Em; [|done]. pose proof (hs_of_move _ _ _ _ Em) as Hp.
    assert (Hs2 : sst.2 = map erase lkg) by by rewrite T2.
    destruct (new_step kd els (gc_mem st) (held (genv', k) ++ R ++ lkg) (frees k ++ F)) as [(m&g&E&Hb&He&Hwg&Hi'&Hd')|(m&g&rest&E&Hb&He&Hi'&Hd')].
    { eapply ginv_perm; [|exact Hi]. unfold held. cbn [fst snd]. rewrite Hp. rewrite <-!app_assoc. done. }
    { done. }
    { eapply nodes_wf_sub; [|exact Hw]. intros x Hx. rewrite Hp. apply elem_of_app. by left. }
    + rewrite Hb, E. intros [= <- <-]. rewrite <-He.
      exists (GCS m (<[t := thr_of (genv' ++ [Some g], k)]> (gc_thr st))), (<[t := (genv' ++ [Some g], k)]> gs), lkg.
      split; [by rewrite thr_of_app|]. rewrite Hs2. change (Some (erase g)) with (option_map erase (Some g)).
      change (map (option_map erase) genv') with (env_of (genv', k)).
      rewrite <-(env_of_app genv' (Some g) k). apply Hput; [|done|done|].
      * rewrite held_app. done.
      * apply wf_app; [|done]. eapply nodes_wf_sub; [|exact Hw]. intros x Hx. rewrite Hp. apply elem_of_app. by right.
    + rewrite Hb, E. intros [= <- <-]. rewrite <-He.
      exists (GCS m (<[t := thr_of (genv' ++ [None], map GDrop rest ++ k)]> (gc_thr st))), (<[t := (genv' ++ [None], map GDrop rest ++ k)]> gs), (g :: lkg).
      split. { unfold thr_of. cbn [fst snd gt_stk]. by rewrite !map_app, !map_map. }
      rewrite Hs2. change (@None tree) with (option_map erase None).
      change (map (option_map erase) genv') with (env_of (genv', map GDrop rest ++ k)).
      rewrite <-(env_of_app genv' None (map GDrop rest ++ k)). change (erase g :: map erase lkg) with (map erase (g :: lkg)).
      apply Hput.
      * rewrite held_none. eapply ginv_perm; [|exact Hi']. unfold held. cbn [fst snd]. rewrite pend_app, pend_drops.
        rewrite (Permutation_app_comm rest). rewrite <-!app_assoc. rewrite <-!(Permutation_middle _ _ g).
        rewrite (Permutation_app_comm rest). by rewrite <-!app_assoc.
      * cbn [snd]. by rewrite frees_app, frees_drops.
      * cbn [snd]. by rewrite frees_app, frees_drops.
      * apply wf_none. eapply nodes_wf_sub; [|exact Hw]. intros x Hx. rewrite Hp. apply elem_of_app. by right.
  - (* clone *)
    pose proof (t_peek_rel st sst gs lkg o h HT) as Hpk. destruct (ts_peek sst o h) as [x|]; [|done].
    destruct Hpk as (g&->&Ea&Hin&Hwg). intros [= <- <-]. rewrite Ea.
    destruct (clone_step (gc_mem st) (held (genv, k) ++ R ++ lkg) (frees k ++ F) g) as (m&E&Hi'&Hd'); [done|done| |].
    { eapply stored_in; [apply (tr_inv _ _ _ _ _ HT)|]. apply elem_of_app. by left. }
    rewrite E.
    exists (GCS m (<[t := thr_of (genv ++ [Some g], k)]> (gc_thr st))), (<[t := (genv ++ [Some g], k)]> gs), lkg. split; [by rewrite thr_of_app|].
    assert (Hs2 : sst.2 = map erase lkg) by by rewrite T2. rewrite Hs2.
    change (Some (erase g)) with (option_map erase (Some g)).
    rewrite <-(env_of_app genv (Some g) k). apply Hput; [|done|done|by apply wf_app]. rewrite held_app. done.
  - (* child *)
    pose proof (t_peek_rel st sst gs lkg o h HT) as Hpk. destruct (ts_peek sst o h) as [x|]; [|done].
    destruct Hpk as (g&->&Ea&Hin&Hwg). cbn [mbind option_bind]. destruct (s_children (erase g)) as [[kk cs]|] eqn:Ec; [|done].
    apply erase_s_children in Ec as (Hn&->&->). intros [= <- <-]. rewrite Ea.
    assert (Hsg : stored (gmm (gc_mem st)) g).
    { eapply stored_in; [apply (tr_inv _ _ _ _ _ HT)|]. apply elem_of_app. by left. }
    assert (Hs2 : sst.2 = map erase lkg) by by rewrite T2. rewrite Hs2.
    unfold gs_child, mbind, gsm_bind. rewrite (gs_cell_ok _ _ Hsg), cslots_of.
    change (map gaddr (kids g)) with (gaddr <$> kids g). change (map erase (kids g)) with (erase <$> kids g). rewrite !list_lookup_fmap.
    destruct (kids g !! i) as [x|] eqn:Ex; cbn [fmap option_fmap option_map].
    + assert (Hx : x ∈ kids g) by by eapply elem_of_list_lookup_2.
      destruct (clone_step (gc_mem st) (held (genv, k) ++ R ++ lkg) (frees k ++ F) x) as (m&E&Hi'&Hd'); [done|done| |].
      { apply stored_inv in Hsg as [_ K]. rewrite Forall_forall in K. by apply K. }
      rewrite E. unfold mret, gsm_ret.
      exists (GCS m (<[t := thr_of (genv ++ [Some x], k)]> (gc_thr st))), (<[t := (genv ++ [Some x], k)]> gs), lkg. split; [by rewrite thr_of_app|].
      change (Some (erase x)) with (option_map erase (Some x)). rewrite <-(env_of_app genv (Some x) k).
      apply Hput; [rewrite held_app; done|done|done|]. apply wf_app; [done|].
      eapply nodes_wf_sub; [|apply nodes_wf_kids, Hwg]. by intros y ->%elem_of_list_singleton.
    + unfold mret, gsm_ret.
      exists (GCS (gc_mem st) (<[t := thr_of (genv ++ [None], k)]> (gc_thr st))), (<[t := (genv ++ [None], k)]> gs), lkg. split; [by rewrite thr_of_app|].
      change (@None tree) with (option_map erase None). rewrite <-(env_of_app genv None k).
      apply Hput; [by rewrite held_none|done|done|by apply wf_none].
  - (* read *)
    pose proof (t_peek_rel st sst gs lkg o h HT) as Hpk. destruct (ts_peek sst o h) as [x|]; [|done].
    destruct Hpk as (g&->&Ea&Hin&Hwg). intros [= <- <-]. rewrite Ea.
    rewrite gs_read_ok; [by eexists _, _, _|]. eapply stored_in; [apply (tr_inv _ _ _ _ _ HT)|]. apply elem_of_app. by left.
  - (* drop begins *)
    unfold env_of at 1. cbn [thr_of gt_env gt_stk fst snd]. rewrite !g_peek_map. destruct (g_peek h genv) as [g|] eqn:Eh; [|done].
    cbn [option_map]. intros [= <- <-]. pose proof (hs_of_move _ _ _ _ (g_move_one _ _ _ Eh)) as Hp. simpl in Hp.
    eexists _, (<[t := (<[h := None]> genv, GDrop g :: k)]> gs), lkg. split; [done|].
    assert (Hs2 : sst.2 = map erase lkg) by by rewrite T2. rewrite Hs2.
    assert (E1 : <[h:=None]> (env_of (genv, k)) = env_of (<[h := None]> genv, GDrop g :: k)).
    { unfold env_of. cbn [fst]. change (@None tree) with (option_map erase None). by rewrite map_insert_opt. }
    assert (E2 : GTH (<[h:=None]> (map (option_map gaddr) genv)) (FDrop (gaddr g) :: map frame_of k) = thr_of (<[h := None]> genv, GDrop g :: k)).
    { unfold thr_of. cbn [fst snd map frame_of]. f_equal. change (@None addr) with (option_map gaddr None). by rewrite map_insert_opt. }
    rewrite E1, E2. apply Hput.
    + eapply ginv_perm; [|exact Hi]. unfold held. cbn [fst snd]. change (pend (GDrop g :: k)) with (g :: pend k).
      rewrite Hp. rewrite <-Permutation_middle. done.
    + done.
    + done.
    + eapply nodes_wf_sub; [|exact Hw]. intros x Hx. rewrite Hp. by right.
  - (* send *)
    unfold env_of at 1. cbn [thr_of gt_env gt_stk fst snd]. rewrite !g_peek_map. destruct (g_peek h genv) as [g|] eqn:Eh; [|done].
    cbn [option_map]. pose proof (hs_of_move _ _ _ _ (g_move_one _ _ _ Eh)) as Hp. simpl in Hp.
    assert (HT1 : trel pr (GCS (gc_mem st) (<[t := thr_of (<[h := None]> genv, k)]> (gc_thr st)))
              (<[t := env_of (<[h := None]> genv, k)]> sst.1, map erase (g :: lkg)) (<[t := (<[h := None]> genv, k)]> gs) (g :: lkg)).
    { apply Hput; [|done|done|].
      - eapply ginv_perm; [|exact Hi]. unfold held. cbn [fst snd]. rewrite Hp. simpl. rewrite <-!Permutation_middle. done.
      - eapply nodes_wf_sub; [|exact Hw]. intros x Hx. cbn [fst] in Hx. rewrite Hp. by right. }
    assert (E1 : <[h:=None]> (env_of (genv, k)) = env_of (<[h := None]> genv, k)).
    { unfold env_of. cbn [fst]. change (@None tree) with (option_map erase None). by rewrite map_insert_opt. }
    assert (E2 : GTH (<[h:=None]> (map (option_map gaddr) genv)) (map frame_of k) = thr_of (<[h := None]> genv, k)).
    { unfold thr_of. cbn [fst snd]. f_equal. change (@None addr) with (option_map gaddr None). by rewrite map_insert_opt. }
    rewrite E1, E2. clear E1 E2 Hput Hi Hd Hnd. pose proof HT1 as [U1 U2 _ _ _ _]. cbn [gc_thr] in U1. injection U2 as U2.
    set (gs1 := <[t := (<[h := None]> genv, k)]> gs) in *.
    assert (Els1 : <[t := env_of (<[h := None]> genv, k)]> sst.1 !! u = env_of <$> gs1 !! u) by (rewrite U2; apply (list_lookup_fmap env_of)).
    assert (Elt1 : <[t := thr_of (<[h := None]> genv, k)]> (gc_thr st) !! u = thr_of <$> gs1 !! u) by (rewrite U1; apply (list_lookup_fmap thr_of)).
    rewrite Els1, Elt1. destruct (gs1 !! u) as [[genv1 k1]|] eqn:Eu; [|done]. cbn [fmap option_fmap option_map]. intros [= <- <-].
    destruct (trel_thread pr _ _ gs1 (g :: lkg) u (genv1, k1) HT1 Eu) as (R1&F1&Hi1&Hd1&Hnd1&Hw1&Hput1). cbn [fst snd gc_mem gc_thr] in *.
    assert (Hs2 : sst.2 = map erase lkg) by by rewrite T2. rewrite Hs2.
    eexists _, (<[u := (genv1 ++ [Some g], k1)]> gs1), lkg. split; [done|].
    change (Some (erase g)) with (option_map erase (Some g)). rewrite <-(env_of_app genv1 (Some g) k1).
    change (Some (gaddr g)) with (option_map gaddr (Some g)). rewrite <-(thr_of_app genv1 (Some g) k1).
    apply Hput1; [|done|done|].
    + rewrite held_app. eapply ginv_perm; [|exact Hi1]. rewrite app_assoc. rewrite <-Permutation_middle. by rewrite <-app_assoc.
    + apply wf_app; [done|]. eapply nodes_wf_sub; [|exact Hw]. intros x ->%elem_of_list_singleton. rewrite Hp. left.
  - (* a drop goes on *)
    intros [= <- <-]. cbn [thr_of gt_stk gt_env fst snd].
    assert (Hsst : forall k', (<[t := env_of (genv, k')]> sst.1, map erase lkg) = sst).
    { intros k'. rewrite T2. cbn [fst]. f_equal. apply list_insert_id. change (map env_of gs) with (env_of <$> gs). rewrite list_lookup_fmap, Et. done. }
    destruct k as [|[g|a] k]; cbn [map frame_of].
    + by eexists _, _, _.
    + destruct (drop_step (gc_mem st) (held (genv, k) ++ R ++ lkg) (frees k ++ F) g) as (m&fs&E&Hi'&Hd'&Hnd'); [|done|done|].
      { eapply ginv_perm; [|exact Hi]. unfold held. cbn [fst snd]. change (pend (GDrop g :: k)) with (g :: pend k).
        rewrite <-Permutation_middle. done. }
      rewrite E. eexists _, (<[t := (genv, fs ++ k)]> gs), lkg. split; [done|]. rewrite <-map_app, <-(Hsst (fs ++ k)).
      change (GTH (map (option_map gaddr) genv) (map frame_of (fs ++ k))) with (thr_of (genv, fs ++ k)). apply Hput.
      * eapply ginv_perm; [|exact Hi']. unfold held. cbn [fst snd]. rewrite pend_app.
        rewrite !app_assoc. do 2 apply Permutation_app_tail. rewrite <-!app_assoc. rewrite Permutation_app_comm. rewrite <-app_assoc.
        apply Permutation_app_head. apply Permutation_app_comm.
      * cbn [snd]. by rewrite frees_app, <-app_assoc.
      * cbn [snd]. by rewrite frees_app, <-app_assoc.
      * done.
    + destruct (free_step (gc_mem st) (held (genv, k) ++ R ++ lkg) (frees k ++ F) a) as (m&E&Hi'&Hd'); [done|done|done|].
      rewrite E. eexists _, (<[t := (genv, k)]> gs), lkg. split; [done|]. rewrite <-(Hsst k).
      change (GTH (map (option_map gaddr) genv) (map frame_of k)) with (thr_of (genv, k)). apply Hput; [done|done| |done].
      change (frees (GFree a :: k) ++ F) with (a :: frees k ++ F) in Hnd. by apply NoDup_cons in Hnd as [_ ?].
Qed.

Lemma t_run_ok p : forall st sst gs lkg obs sst',
  trel pr st sst gs lkg -> ts_run pr p sst = Some (obs, sst') ->
  exists st' gs' lkg', t_run al pr p st = Ok (obs, st') /\ trel pr st' sst' gs' lkg'.
Proof using Hal.
  induction p as [|[t o] p IH]; intros st sst gs lkg obs sst' HT; simpl.
  - intros [= <- <-]. by eexists _, _, _.
  - destruct (ts_step pr t o sst) as [[b s1]|] eqn:Es; [|done].
    destruct (ts_run pr p s1) as [[bs s2]|] eqn:Er; [|done]. intros [= <- <-].
    destruct (t_step_ok t o st sst gs lkg b s1 HT Es) as (st1&gs1&lkg1&E1&HT1).
    destruct (IH st1 s1 gs1 lkg1 bs s2 HT1 Er) as (st2&gs2&lkg2&E2&HT2).
    exists st2, gs2, lkg2. simpl. rewrite E1. simpl. rewrite E2. done.
Qed.
End sim.

Lemma trel_init pr n : trel pr (t_init n) (ts_init n) (replicate n ([], [])) [].
Proof.
  assert (Hc : forall B (f : gthr -> list B), f ([], []) = [] -> concat (map f (replicate n ([], []))) = []).
  { intros B f Hf. induction n as [|m IH]; simpl; [done|]. by rewrite Hf, IH. }
  split; simpl.
  - clear Hc. induction n as [|m IH]; simpl; [done|]. by rewrite IH.
  - clear Hc. unfold ts_init. f_equal. induction n as [|m IH]; simpl; [done|]. by rewrite <-IH.
  - rewrite Hc by done. apply ginv_empty.
  - rewrite Hc by done. intros a. rewrite lookup_empty. split; [intros [c [=]]|by intros ?%elem_of_nil].
  - rewrite Hc by done. constructor.
  - apply Forall_replicate. by intros _ e ?%elem_of_nil.
Qed.

(** ** What a state shows *)
Lemma pointers_of pr st sst gs lkg : trel pr st sst gs lkg ->
  all_handles st ++ to_drop st ≡ₚ map gaddr (concat (map held gs)).
Proof.
  intros HT. unfold all_handles, to_drop. rewrite (tr_thr _ _ _ _ _ HT). clear HT.
  induction gs as [|[genv k] gs IH]; simpl; [done|]. rewrite map_app, <-IH. unfold held. cbn [fst snd]. rewrite map_app.
  assert (H1 : live_handles (map (option_map gaddr) genv) = map gaddr (hs_of genv)).
  { unfold live_handles, hs_of. clear. induction genv as [|[g|] genv IH]; simpl; [done|by rewrite IH|done]. }
  assert (H2 : filter_map (fun f => match f with FDrop a => Some a | FFree _ => None end) (map frame_of k) = map gaddr (pend k)).
  { unfold pend. clear. induction k as [|[g|a] k IH]; simpl; [done| |done]. by rewrite IH. }
  rewrite H1, H2. rewrite <-!app_assoc. apply Permutation_app_head. rewrite !app_assoc. apply Permutation_app_tail. apply Permutation_app_comm.
Qed.
Lemma to_free_of pr st sst gs lkg : trel pr st sst gs lkg -> to_free st = concat (map (fun g => frees g.2) gs).
Proof.
  intros HT. unfold to_free. rewrite (tr_thr _ _ _ _ _ HT). clear HT.
  induction gs as [|[genv k] gs IH]; simpl; [done|]. rewrite IH. f_equal. unfold frees.
  clear. induction k as [|[g|a] k IH]; simpl; [done|done|]. by rewrite IH.
Qed.
Lemma idle_of pr st sst gs lkg : trel pr st sst gs lkg -> all_idle st -> to_drop st = [] /\ to_free st = [].
Proof.
  intros _. unfold all_idle, to_drop, to_free. induction 1 as [|th ths H _ [I1 I2]]; [done|]. simpl. rewrite H. by rewrite I1, I2.
Qed.
Lemma idle_gok pr st sst gs lkg : trel pr st sst gs lkg -> all_idle st -> gok (gmm (gc_mem st)) (concat (map held gs) ++ lkg).
Proof.
  intros HT Hid. split; [apply HT|]. intros a c Hc. pose proof (tr_dead _ _ _ _ _ HT a) as Hd.
  destruct (idle_of _ _ _ _ _ HT Hid) as [_ Hf]. rewrite <-(to_free_of _ _ _ _ _ HT), Hf in Hd.
  assert (a ∈ @nil addr) as ?%elem_of_nil; [|done]. apply Hd. eauto.
Qed.
(** everything that can be reached from an element is alive *)
Lemma stored_reach m g a : stored m g -> reaches m (gaddr g) a -> exists n c, m !! a = Some (S n, c).
Proof.
  intros Hg Hr. remember (gaddr g) as b eqn:Eb. revert g Hg Eb. induction Hr as [b|b n c x a Hb Hx Hr IH]; intros g Hg ->.
  - apply stored_inv in Hg as [[n Hn] _]. eauto.
  - apply stored_inv in Hg as [[n' Hn] K]. rewrite Hn in Hb. injection Hb as _ <-. rewrite cslots_of in Hx.
    apply elem_of_map in Hx as (y&->&Hy). rewrite Forall_forall in K. by apply (IH y); [apply K|].
Qed.

(** ** How much is left to drop *)
Lemma work_insert m a v : m !! a = None -> work (<[a := v]> m) = S (v.1 + work m).
Proof. intros H. unfold work. rewrite map_fold_insert_L; [done| |done]. intros. lia. Qed.
Lemma work_delete m a v : m !! a = Some v -> work m = S (v.1 + work (delete a m)).
Proof. intros H. rewrite <-(insert_delete m a v H) at 1. apply work_insert. apply lookup_delete. Qed.
Lemma work_update m a v w : m !! a = Some v -> work m + w.1 = work (<[a := w]> m) + v.1.
Proof.
  intros H. rewrite (work_delete m a v H). rewrite (work_delete (<[a := w]> m) a w) by apply lookup_insert.
  rewrite delete_insert_delete. lia.
Qed.
Lemma busy_step al pr t st b st' th : gc_thr st !! t = Some th -> gt_stk th <> [] -> t_step al pr t TStep st = Ok (b, st') ->
  S (work (gmm (gc_mem st'))) = work (gmm (gc_mem st)).
Proof.
  intros Et Hne. unfold t_step. rewrite Et. destruct (gt_stk th) as [|[a|a] stk]; [done| |].
  - unfold t_drop. destruct (gmm (gc_mem st) !! a) as [[[|[|n]] c]|] eqn:Ea; [done| | |done]; intros [= _ <-]; simpl;
      pose proof (work_update _ _ _ (0, GCTok (ckind c) []) Ea) as H0; [simpl in H0; lia|].
    pose proof (work_update _ _ _ (S n, c) Ea) as H1. simpl in H1. lia.
  - unfold t_free. destruct (gmm (gc_mem st) !! a) as [[[|n] c]|] eqn:Ea; [|done|done]; intros [= _ <-]; simpl.
    pose proof (work_delete _ _ _ Ea) as H1. simpl in H1. lia.
Qed.
(** a step of a drop does not concern other threads, nor threads that have nothing to drop *)
Lemma step_frame al pr t u st b st' th : gc_thr st !! u = Some th -> t <> u \/ gt_stk th = [] ->
  t_step al pr t TStep st = Ok (b, st') -> gc_thr st' !! u = Some th.
Proof.
  intros Eu Hc. unfold t_step. destruct (gc_thr st !! t) as [th0|] eqn:Et; [|done].
  destruct (decide (t = u)) as [->|Hne].
  - destruct Hc as [?|Hc]; [done|]. rewrite Et in Eu. injection Eu as ->. rewrite Hc. by intros [= _ <-].
  - destruct (gt_stk th0) as [|[a|a] stk]; [by intros [= _ <-]| |].
    + destruct (t_drop a (gc_mem st)) as [[fs|] m]; [|done]. intros [= _ <-]. simpl. by rewrite list_lookup_insert_ne.
    + destruct (t_free a (gc_mem st)) as [[fs|] m]; [|done]. intros [= _ <-]. simpl. by rewrite list_lookup_insert_ne.
Qed.
Lemma step_work al pr t st b st' : t_step al pr t TStep st = Ok (b, st') -> work (gmm (gc_mem st')) <= work (gmm (gc_mem st)).
Proof.
  intros E. destruct (gc_thr st !! t) as [th|] eqn:Et; [|unfold t_step in E; by rewrite Et in E].
  destruct (gt_stk th) as [|f k] eqn:Ek.
  - unfold t_step in E. rewrite Et, Ek in E. by injection E as _ <-.
  - pose proof (busy_step al pr t st b st' th Et ltac:(by rewrite Ek) E). lia.
Qed.
Lemma step_length al pr t st b st' : t_step al pr t TStep st = Ok (b, st') -> length (gc_thr st') = length (gc_thr st).
Proof.
  unfold t_step. destruct (gc_thr st !! t) as [th0|] eqn:Et; [|done].
  destruct (gt_stk th0) as [|[a|a] stk]; [by intros [= _ <-]| |].
  - destruct (t_drop a (gc_mem st)) as [[fs|] m]; [|done]. intros [= _ <-]. simpl. by rewrite insert_length.
  - destruct (t_free a (gc_mem st)) as [[fs|] m]; [|done]. intros [= _ <-]. simpl. by rewrite insert_length.
Qed.
Lemma still_busy al pr ts : forall st obs st' u th', t_run al pr (drops ts) st = Ok (obs, st') ->
  gc_thr st' !! u = Some th' -> gt_stk th' <> [] ->
  work (gmm (gc_mem st')) + count_occ Nat.eq_dec ts u <= work (gmm (gc_mem st)) /\
  exists th, gc_thr st !! u = Some th /\ gt_stk th <> [].
Proof.
  induction ts as [|t ts IH]; intros st obs st' u th' E Eu Hb; simpl in E.
  - injection E as _ <-. simpl. split; [lia|]. eauto.
  - destruct (t_step al pr t TStep st) as [[b st1]|] eqn:E1; [|done]. simpl in E.
    destruct (t_run al pr (drops ts) st1) as [[bs st2]|] eqn:E2; [|done]. simpl in E. injection E as _ <-.
    destruct (IH st1 bs st2 u th' E2 Eu Hb) as [Hw (th1&Eu1&Hb1)].
    assert (Hlt : u < length (gc_thr st)).
    { rewrite <-(step_length _ _ _ _ _ _ E1). by eapply lookup_lt_Some. }
    apply lookup_lt_is_Some_2 in Hlt as [th Eth].
    assert (Hbusy : gt_stk th <> []).
    { intros Hn. rewrite (step_frame _ _ _ _ _ _ _ _ Eth (or_intror Hn) E1) in Eu1. by injection Eu1 as <-. }
    split; [|eauto]. simpl. destruct (Nat.eq_dec t u) as [->|Hne].
    + pose proof (busy_step _ _ _ _ _ _ _ Eth Hbusy E1). lia.
    + pose proof (step_work _ _ _ _ _ _ E1). lia.
Qed.
Lemma drops_spec pr ts : forall sst, Forall (fun t => t < length sst.1) ts ->
  ts_run pr (drops ts) sst = Some (map (fun t => (t, OUnit)) ts, sst).
Proof.
  induction ts as [|t ts IH]; intros sst HF; simpl; [done|]. apply Forall_cons in HF as [Ht HF].
  apply lookup_lt_is_Some_2 in Ht as [env Et]. unfold ts_step. rewrite Et. by rewrite IH.
Qed.

(** ** Threads that keep to their own handles *)
Lemma own_other pr t u o s b s' : t <> u -> own_step t o -> ts_step pr t o s = Some (b, s') -> s'.1 !! u = s.1 !! u.
Proof.
  intros Hne Ho. unfold ts_step. destruct (s.1 !! t) as [env|] eqn:Et; [|done].
  destruct o as [kd str|kd hs|o h|o h i|o h|h|h v|]; simpl in Ho; [..|done|].
  - intros [= _ <-]. simpl. by rewrite list_lookup_insert_ne.
  - destruct (g_move hs env) as [[ts env']|]; [|done]. destruct (gbuildable pr ts); intros [= _ <-]; simpl; by rewrite list_lookup_insert_ne.
  - destruct (ts_peek s o h); [|done]. intros [= _ <-]. simpl. by rewrite list_lookup_insert_ne.
  - destruct (ts_peek s o h ≫= s_children) as [[k cs]|]; [|done]. intros [= _ <-]. simpl. by rewrite list_lookup_insert_ne.
  - destruct (ts_peek s o h); [|done]. by intros [= _ <-].
  - destruct (g_peek h env); [|done]. intros [= _ <-]. simpl. by rewrite list_lookup_insert_ne.
  - by intros [= _ <-].
Qed.
Lemma insert_same {A} (l l' : list A) t x : is_Some (l !! t) -> l !! t = l' !! t -> <[t := x]> l !! t = <[t := x]> l' !! t.
Proof.
  intros H1 H2. rewrite !list_lookup_insert; [done| |by eapply lookup_lt_is_Some_1].
  apply lookup_lt_is_Some_1. by rewrite <-H2.
Qed.
Lemma own_same pr t o s1 s2 b s1' : own_step t o -> s1.1 !! t = s2.1 !! t -> ts_step pr t o s1 = Some (b, s1') ->
  exists s2', ts_step pr t o s2 = Some (b, s2') /\ s1'.1 !! t = s2'.1 !! t.
Proof.
  intros Ho Hs. assert (Hpk : forall o h, o = t -> ts_peek s2 o h = ts_peek s1 o h).
  { intros o' h ->. unfold ts_peek. by rewrite Hs. }
  unfold ts_step. rewrite <-Hs. destruct (s1.1 !! t) as [env|] eqn:Et; [|done].
  assert (Hin : forall x, <[t := x]> s1.1 !! t = <[t := x]> s2.1 !! t).
  { intros x. apply insert_same; [by rewrite Et|by rewrite Et]. }
  destruct o as [kd str|kd hs|o h|o h i|o h|h|h v|]; simpl in Ho; [..|done|]; rewrite ?Hpk by done.
  - intros [= <- <-]. eexists. split; [done|]. apply Hin.
  - destruct (g_move hs env) as [[ts env']|]; [|done]. destruct (gbuildable pr ts); intros [= <- <-]; eexists; (split; [done|]); apply Hin.
  - destruct (ts_peek s1 o h); [|done]. intros [= <- <-]. eexists. split; [done|]. apply Hin.
  - destruct (ts_peek s1 o h ≫= s_children) as [[k cs]|]; [|done]. intros [= <- <-]. eexists. split; [done|]. apply Hin.
  - destruct (ts_peek s1 o h); [|done]. intros [= <- <-]. eexists. split; [done|]. by rewrite Et.
  - destruct (g_peek h env); [|done]. intros [= <- <-]. eexists. split; [done|]. apply Hin.
  - intros [= <- <-]. eexists. split; [done|]. by rewrite Et.
Qed.
Lemma own_run pr t p : forall s1 s2 obs s1', Forall (fun x => own_step x.1 x.2) p -> s1.1 !! t = s2.1 !! t ->
  ts_run pr p s1 = Some (obs, s1') ->
  exists s2', ts_run pr (only t p) s2 = Some (only t obs, s2') /\ s1'.1 !! t = s2'.1 !! t.
Proof.
  induction p as [|[u o] p IH]; intros s1 s2 obs s1' HF Hs; simpl.
  - intros [= <- <-]. by eexists.
  - apply Forall_cons in HF as [Ho HF]. simpl in Ho. destruct (ts_step pr u o s1) as [[b s]|] eqn:Es; [|done].
    destruct (ts_run pr p s) as [[bs s']|] eqn:Er; [|done]. intros [= <- <-].
    unfold only. rewrite !filter_cons. simpl. destruct (decide (u = t)) as [->|Hne].
    + destruct (own_same pr t o s1 s2 b s Ho Hs Es) as (s2'&E2&Hs2). simpl. rewrite E2.
      destruct (IH s s2' bs s' HF Hs2 Er) as (s2''&E3&Hs3). unfold only in E3. rewrite E3. by eexists.
    + apply (IH s s2 bs s' HF); [|done]. rewrite <-Hs. by eapply own_other.
Qed.
