(** * Builders and caches on counted memory: proofs *)
From Verif Require Export StoreBuild GreenStoreFacts BuilderFacts.
Local Open Scope nat_scope.

(** ** Elements and their addresses *)
(** proof device, no counterpart in the code *)
Definition amap (l : list (N * green)) : list (N * addr) := map (fun e => (e.1, gaddr e.2)) l.
(** proof device, no counterpart in the code *)
Definition cmap (c : pcache green) : pcache addr := PC (amap (pc_nodes c)) (amap (pc_tokens c)).
(** proof device, no counterpart in the code *)
Definition bmap (b : pbuilder green) : pbuilder addr :=
  PB (match pb_cache b with Owned c => Owned (cmap c) | Borrowed i => Borrowed i end) (pb_parents b) (amap (pb_children b)).
Lemma amap_app l1 l2 : amap (l1 ++ l2) = amap l1 ++ amap l2.
Proof. apply map_app. Qed.
Lemma amap_snd l : map snd (amap l) = map gaddr (map snd l).
Proof. unfold amap. by rewrite !map_map. Qed.
Lemma amap_length l : length (amap l) = length l.
Proof. apply map_length. Qed.
Lemma amap_take n l : take n (amap l) = amap (take n l).
Proof. apply firstn_map. Qed.
Lemma amap_drop n l : drop n (amap l) = amap (drop n l).
Proof. apply skipn_map. Qed.
Lemma cmap_elems c : pc_elems (cmap c) = map gaddr (pc_elems c).
Proof. unfold pc_elems. simpl. by rewrite !amap_snd, map_app. Qed.
Lemma bmap_elems b : pb_elems (bmap b) = map gaddr (pb_elems b).
Proof. unfold pb_elems. rewrite map_app. destruct b as [[c|i] ps cs]; simpl; rewrite ?cmap_elems, amap_snd; done. Qed.

Lemma gs_map_pure {A B} (f : A -> gsm B) (r : A -> B) l st : (forall x, x ∈ l -> f x st = (Ok (r x), st)) -> gs_map f l st = (Ok (map r l), st).
Proof.
  induction l as [|x l IH]; intros H; [done|]. simpl. unfold mbind, gsm_bind. rewrite H by set_solver. rewrite IH; [done|].
  intros y Hy. apply H. set_solver.
Qed.
Lemma gs_each_pure {A} (f : A -> gsm unit) l st : (forall x, x ∈ l -> f x st = (Ok (), st)) -> gs_each f l st = (Ok (), st).
Proof.
  induction l as [|x l IH]; intros H; [done|]. simpl. unfold mbind, gsm_bind. rewrite H by set_solver. apply IH.
  intros y Hy. apply H. set_solver.
Qed.
Lemma elem_of_amap e tab : e ∈ amap tab <-> exists h g, e = (h, gaddr g) /\ (h, g) ∈ tab.
Proof.
  unfold amap. rewrite elem_of_map. split; [intros ([h g]&->&H); eauto|intros (h&g&->&H); by exists (h, g)].
Qed.
Lemma elem_of_snd {A B} (l : list (A * B)) y : y ∈ map snd l <-> exists x, (x, y) ∈ l.
Proof. rewrite elem_of_map. split; [intros ([x z]&->&H); eauto|intros (x&H); by exists (x, y)]. Qed.

Lemma gs_bind_ok {A B} (m : gsm A) (k : A -> gsm B) st a st' : m st = (Ok a, st') -> (m ≫= k) st = k a st'.
Proof. intros H. unfold mbind, gsm_bind. by rewrite H. Qed.

(** reorder the parts of a list *)
Ltac perm :=
  match goal with |- ?a ≡ₚ ?b => apply (Permutation_app_inv_r [] a b) end;
  rewrite <-?app_assoc;
  repeat match goal with
  | |- ?x ++ _ ≡ₚ ?x ++ _ => apply Permutation_app_head
  | |- ?x ++ _ ≡ₚ _ => rewrite (Permutation_app_swap_app _ x)
  end;
  try reflexivity.
(** what a list of variables refers to *)
Definition elems_of {A B} (f : A -> list B) (l : list (option A)) : list B := concat (map f (filter_map id l)).
Lemma elems_of_app {A B} (f : A -> list B) l1 l2 : elems_of f (l1 ++ l2) = elems_of f l1 ++ elems_of f l2.
Proof. unfold elems_of. induction l1 as [|[x|] l1 IH]; simpl; [done| |done]. by rewrite IH, app_assoc. Qed.
Lemma elems_of_take {A B} (f : A -> list B) l i x : l !! i = Some (Some x) -> elems_of f l ≡ₚ f x ++ elems_of f (<[i := None]> l).
Proof.
  revert i. induction l as [|o l IH]; intros i; [done|]. destruct i as [|i]; simpl.
  - intros [= ->]. done.
  - intros H. unfold elems_of in *. destruct o as [y|]; simpl; rewrite (IH i H); [|done]. apply Permutation_app_swap_app.
Qed.
Lemma elems_of_put {A B} (f : A -> list B) l i y : i < length l -> elems_of f (<[i := Some y]> l) ≡ₚ f y ++ elems_of f (<[i := None]> l).
Proof.
  intros Hi. rewrite (elems_of_take f (<[i := Some y]> l) i y).
  - by rewrite list_insert_insert.
  - by apply list_lookup_insert.
Qed.
Lemma elem_of_elems {A B} (f : A -> list B) l i a x : l !! i = Some (Some a) -> x ∈ f a -> x ∈ elems_of f l.
Proof. intros Hl Hx. rewrite (elems_of_take f l i a Hl). set_solver. Qed.
Lemma g_peek_Some {A} i (l : list (option A)) x : g_peek i l = Some x <-> l !! i = Some (Some x).
Proof. unfold g_peek. destruct (l !! i) as [[y|]|]; simpl; naive_solver. Qed.
Lemma g_peek_lt {A} i (l : list (option A)) x : g_peek i l = Some x -> i < length l.
Proof. intros H%g_peek_Some. by eapply lookup_lt_Some. Qed.
Lemma g_peek_insert {A} i j (l : list (option A)) v : i < length l -> g_peek j (<[i := v]> l) = if decide (i = j) then v else g_peek j l.
Proof.
  intros Hi. unfold g_peek. destruct (decide (i = j)) as [->|Hne].
  - rewrite list_lookup_insert by done. by destruct v.
  - by rewrite list_lookup_insert_ne.
Qed.

Section env.
Context (E : menv).
(** Cache.v takes its hash functions from an environment *)
Definition menv_c : cenv := {|
  hinit := m_hinit E; hkind := m_hkind E; htext := m_htext E; hu64 := m_hu64 E; hfin := m_hfin E;
  probe := fun _ _ _ _ => None; grows := fun _ _ => false; alloc := fun _ _ => 0 |}.
Notation nhash := (node_hash menv_c).

(** ** Hashes read from memory *)
Lemma gs_hash_rec_ok h g : forall d, gheight g <= d -> stored (gmm h) g -> gs_hash_rec E d (gaddr g) h = (Ok (node_hash menv_c g), h).
Proof.
  induction g as [a k tl cs IH|a k s] using green_ind'; intros d Hd Hg; (destruct d as [|d]; [simpl in Hd; lia|]);
    simpl; unfold mbind, gsm_bind; pose proof (gs_cell_ok h _ Hg) as Hc; simpl in Hc; rewrite Hc; [|done].
  apply stored_inv in Hg as [_ K]. unfold kids in K. simpl in K.
  assert (Hm : gs_map (gs_hash_rec E d) (map snd (map (fun c => (c.1, gaddr c.2)) cs)) h = (Ok (map (fun c => node_hash menv_c c.2) cs), h)).
  { clear Hc. simpl in Hd. apply le_S_n in Hd. induction cs as [|c cs IHc]; simpl; [done|]. apply Forall_cons in IH as [IH1 IH2]. simpl in K. apply Forall_cons in K as [K1 K2].
    simpl in Hd. unfold mbind, gsm_bind. rewrite IH1 by (done || lia). rewrite IHc by (done || lia). done. }
  rewrite Hm. unfold mret, gsm_ret. do 3 f_equal. cbn. f_equal.
  generalize (m_hkind E (m_hinit E) k). clear. induction cs as [|c cs IH]; intros h; simpl; [done|]. apply IH.
Qed.
Lemma gs_hash_ok h g : stored (gmm h) g -> gs_hash E (gaddr g) h = (Ok (node_hash menv_c g), h).
Proof. intros Hg. unfold gs_hash. apply gs_hash_rec_ok; [|done]. pose proof (gheight_dom _ _ Hg). lia. Qed.

(** ** Tables *)
(** proof device, no counterpart in the code *)
Definition rehash (g0 : bool) (tab : list (N * green)) : list (N * green) :=
  if g0 then map (fun e => (node_hash menv_c e.2, e.2)) tab else tab.
Lemma gs_insert_entry_ok tab hash g st :
  Forall (stored (gmm st)) (map snd tab) ->
  exists g0 st', gs_insert_entry E (amap tab) hash (gaddr g) st = (Ok (amap ((hash, g) :: rehash g0 tab)), st') /\ gmm st' = gmm st.
Proof.
  intros HF. unfold gs_insert_entry, gs_tick, mbind, gsm_bind. set (st' := GST (gmm st) (S (gck st))).
  destruct (m_grows E (gck st) (amap tab)); [exists true, st'|by exists false, st'].
  split; [|done].
  assert (Hm : gs_map (fun e : N * addr => h ← gs_hash E e.2; mret (h, e.2)) (amap tab) st' = (Ok (amap (rehash true tab)), st')).
  { assert (HF' : Forall (stored (gmm st')) (map snd tab)) by done. clearbody st'. clear -HF'. induction tab as [|[h g] tab IH]; [done|].
    apply Forall_cons in HF' as [Hg HF']. specialize (IH HF'). cbn [amap map gs_map rehash fst snd].
    erewrite gs_bind_ok; [|erewrite gs_bind_ok; [|by apply gs_hash_ok]; done].
    erewrite gs_bind_ok; [|exact IH]. done. }
  unfold mbind, gsm_bind in Hm. rewrite Hm. done.
Qed.
Lemma gs_probe_ok tab hash matches st :
  menv_ok E -> Forall (stored (gmm st)) (map snd tab) ->
  exists r st', gs_probe E (amap tab) hash matches st = (Ok r, st') /\ gmm st' = gmm st /\
    match r with
    | Some a => exists i h g, tab !! i = Some (h, g) /\ a = gaddr g /\ matches (gcell_of g) = true
    | None => forall g, (hash, g) ∈ tab -> matches (gcell_of g) = false
    end.
Proof.
  intros [Hp _] HF. unfold gs_probe, gs_tick, mbind, gsm_bind. set (st' := GST (gmm st) (S (gck st))).
  assert (He : gs_each (fun e : N * addr => _ ← gs_cell e.2; mret ()) (amap tab) st' = (Ok (), st')).
  { apply gs_each_pure. intros e (h&g&->&Hin)%elem_of_amap. erewrite gs_bind_ok; [|apply (gs_cell_ok st' g)]; [done|].
    rewrite Forall_forall in HF. apply HF, elem_of_snd. eauto. }
  unfold mbind, gsm_bind in He. rewrite He. unfold gs_mem. cbn [mret gsm_ret].
  set (eq := fun a => match gmm st' !! a with Some (_, c) => matches c | None => false end).
  assert (Heq : forall g, stored (gmm st) g -> eq (gaddr g) = matches (gcell_of g)).
  { intros g [[n Hn] _]%stored_inv. unfold eq. cbn. by rewrite Hn. }
  rewrite Forall_forall in HF.
  specialize (Hp (gck st) (amap tab) hash eq). destruct (m_probe E _ _ _ _) as [a|]; (eexists _, st'; split; [done|]; split; [done|]).
  - destruct Hp as [Hin Hm]. rewrite amap_snd in Hin. apply elem_of_map in Hin as (g&->&Hin). pose proof (HF _ Hin) as Hg.
    apply elem_of_map in Hin as ([h g']&Heqg&Hin). simpl in Heqg. subst g'. apply elem_of_list_lookup in Hin as [i Hi]. exists i, h, g. split; [done|]. split; [done|].
    by rewrite <-Heq.
  - intros g Hin. rewrite <-Heq.
    + apply Hp. unfold amap. apply elem_of_map. by exists (hash, g).
    + apply HF, elem_of_map. by exists (hash, g).
Qed.
Lemma rehash_snd g0 tab : map snd (rehash g0 tab) = map snd tab.
Proof. destruct g0; simpl; [|done]. by rewrite map_map. Qed.
Lemma elem_of_rehash g0 tab h g : (h, g) ∈ rehash g0 tab -> exists h', (h', g) ∈ tab.
Proof. intros H. apply elem_of_snd. rewrite <-(rehash_snd g0). apply elem_of_snd. eauto. Qed.
Lemma rehash_hash g0 tab h g : (forall h g, (h, g) ∈ tab -> h = nhash g) -> (h, g) ∈ rehash g0 tab -> h = nhash g.
Proof.
  intros Ht. destruct g0; simpl; [|apply Ht]. intros ([h' g']&Heq&_)%elem_of_map. simpl in Heq. congruence.
Qed.

(** ** The cache *)
(** proof device, no counterpart in the code *)
Record mcinv (pr : profile) (c : pcache green) : Prop := {
  mc_nodes : forall h g, (h, g) ∈ pc_nodes c -> gis_node g = true /\ h = nhash g /\ gbuildable pr (map erase (kids g)) = true;
  mc_kids : forall h g x, (h, g) ∈ pc_nodes c -> x ∈ kids g -> x ∈ pc_elems c;
  mc_toks : forall h g, (h, g) ∈ pc_tokens c -> gis_node g = false /\ h = nhash g;
  mc_unode : forall h1 g1 h2 g2, (h1, g1) ∈ pc_nodes c -> (h2, g2) ∈ pc_nodes c -> gkind g1 = gkind g2 -> kids g1 = kids g2 -> g1 = g2;
  mc_utok : forall h1 g1 h2 g2, (h1, g1) ∈ pc_tokens c -> (h2, g2) ∈ pc_tokens c -> erase g1 = erase g2 -> g1 = g2;
}.
Lemma mcinv_empty pr : mcinv pr (PC [] []).
Proof. split; simpl; intros; set_solver. Qed.
(** a cache only gets more entries *)
Definition cgrow (c c' : pcache green) : Prop :=
  (forall g, g ∈ map snd (pc_nodes c) -> g ∈ map snd (pc_nodes c')) /\ (forall g, g ∈ map snd (pc_tokens c) -> g ∈ map snd (pc_tokens c')).
Lemma cgrow_elems c c' g : cgrow c c' -> g ∈ pc_elems c -> g ∈ pc_elems c'.
Proof. intros [H1 H2]. unfold pc_elems. rewrite !elem_of_app. intros [?|?]; auto. Qed.
Context (Hmok : menv_ok E) (al : nat -> gset addr -> addr) (Hal : galloc_ok al).

Lemma gs_cache_token_ok pr c k s st L :
  gok (gmm st) (pc_elems c ++ L) -> mcinv pr c ->
  exists g c' st', gs_cache_token E al (cmap c) k s st = (Ok (ms_token_hash E k s, gaddr g, cmap c'), st') /\
    gok (gmm st') (pc_elems c' ++ g :: L) /\ mcinv pr c' /\ cgrow c c' /\ pc_nodes c' = pc_nodes c /\
    erase g = Token k s /\ g ∈ map snd (pc_tokens c').
Proof using Hmok Hal.
  intros Hi Hc. unfold gs_cache_token.
  assert (HF : Forall (stored (gmm st)) (map snd (pc_tokens c))).
  { apply Forall_forall. intros x Hx. eapply gok_stored; [done|]. unfold pc_elems. set_solver. }
  destruct (gs_probe_ok (pc_tokens c) (ms_token_hash E k s) (ms_token_matches k s) st Hmok HF) as (r&st1&E1&Hm1&Hr).
  simpl. erewrite gs_bind_ok; [|exact E1]. destruct r as [a|].
  - destruct Hr as (i&h&g&Hg&->&Hmatch).
    assert (Hin : (h, g) ∈ pc_tokens c) by by eapply elem_of_list_lookup_2.
    rewrite Forall_forall in HF. pose proof (HF g ltac:(apply elem_of_snd; eauto)) as Hst. rewrite <-Hm1 in Hi, Hst.
    destruct (gs_clone_gok st1 _ g Hi Hst) as (st2&E2&Hi2&_).
    exists g, c, st2. erewrite gs_bind_ok; [|exact E2]. split; [done|]. split.
    { eapply gok_perm; [|done]. by rewrite Permutation_middle. }
    split; [done|]. split; [done|]. split; [done|]. split; [|apply elem_of_snd; eauto].
    destruct g as [|a k' s']; simpl in Hmatch; [done|]. apply andb_true_iff in Hmatch as [Hk Hs].
    apply N.eqb_eq in Hk as ->. by apply bool_decide_eq_true in Hs as ->.
  - unfold gs_token. rewrite <-Hm1 in Hi.
    set (g := GTok (al (gck st1) (dom (gmm st1))) k s).
    destruct (gs_alloc_gok al st1 (pc_elems c ++ L) g Hal) as (st2&E2&Hi2&_); [done|done|].
    change (gcell_of g) with (GCTok k s) in E2. erewrite gs_bind_ok; [|exact E2].
    destruct (gs_clone_gok st2 _ g Hi2) as (st3&E3&Hi3&_); [eapply gok_stored; [done|left]|].
    erewrite gs_bind_ok; [|exact E3].
    destruct (gs_insert_entry_ok (pc_tokens c) (ms_token_hash E k s) g st3) as (g0&st4&E4&Hm4).
    { apply Forall_forall. intros x Hx. eapply gok_stored; [exact Hi3|]. unfold pc_elems. set_solver. }
    set (c' := PC (pc_nodes c) ((ms_token_hash E k s, g) :: rehash g0 (pc_tokens c))).
    exists g, c', st4. erewrite gs_bind_ok; [|exact E4]. split; [done|].
    assert (Hgr : cgrow c c').
    { split; [done|]. intros x Hx. unfold c'. simpl. rewrite rehash_snd. by right. }
    destruct Hc as [H1 H2 H3 H4 H5].
    assert (Hold : forall h x, (h, x) ∈ pc_tokens c' -> (h = ms_token_hash E k s /\ x = g) \/ (h, x) ∈ rehash g0 (pc_tokens c)).
    { intros h x. unfold c'. simpl. rewrite elem_of_cons. intros [[= -> ->]|?]; auto. }
    assert (Hnew : forall h x, (h, x) ∈ pc_tokens c -> erase x <> erase g).
    { intros h x Hx Heq. destruct (H3 _ _ Hx) as [Hn ->]. destruct x as [|a' k' s']; [done|]. simpl in Heq. injection Heq as -> ->.
      specialize (Hr _ Hx). simpl in Hr. rewrite N.eqb_refl in Hr. by rewrite bool_decide_eq_true_2 in Hr. }
    split.
    { rewrite Hm4. eapply gok_perm; [|exact Hi3]. unfold pc_elems, c'. simpl. rewrite rehash_snd, <-!app_assoc. simpl.
      rewrite <-(Permutation_middle (map snd (pc_nodes c))). constructor.
      by rewrite !app_assoc, <-Permutation_middle. }
    split; [|split; [done|split; [done|split; [done|left]]]].
    split.
    + exact H1.
    + intros h x y Hx Hy. eapply cgrow_elems; [done|]. by eapply H2.
    + intros h x [[-> ->]|Hx]%Hold; [done|]. pose proof (elem_of_rehash _ _ _ _ Hx) as [h' Hx'].
      split; [by eapply H3|]. eapply rehash_hash; [|done]. intros h2 g2 Hin. by apply H3.
    + exact H4.
    + intros h1 g1 h2 g2 [[-> ->]|Hx1]%Hold [[-> ->]|Hx2]%Hold Heq; [done|..].
      * apply elem_of_rehash in Hx2 as [h' Hx']. by apply Hnew in Hx'.
      * apply elem_of_rehash in Hx1 as [h' Hx']. by apply Hnew in Hx'.
      * apply elem_of_rehash in Hx1 as [h1' Hx1], Hx2 as [h2' Hx2]. by eapply H5.
Qed.
(** the elements of a builder: known hashes are right, and what has a hash is in the cache *)
Definition hashed (e : N * green) : Prop := e.1 <> 0%N -> e.1 = nhash e.2.
(** proof device, no counterpart in the code *)
Definition in_cache (c : pcache green) (e : N * green) : Prop :=
  (gis_node e.2 = false -> e.2 ∈ map snd (pc_tokens c)) /\ (gis_node e.2 = true -> e.1 <> 0%N -> e.2 ∈ map snd (pc_nodes c)).
(** hash 0 means large, unless the hash function yields 0 *)
Definition zero_large (e : N * green) : Prop := (forall x, m_hfin E x <> 0%N) -> e.1 = 0%N -> small (erase e.2) = false.
(** proof device, no counterpart in the code *)
Definition mpinv (c : option (pcache green)) (pend : list (N * green)) : Prop :=
  forall e, e ∈ pend -> hashed e /\ zero_large e /\ match c with Some c => in_cache c e | None => True end.
Lemma mpinv_grow c c' pend : cgrow c c' -> mpinv (Some c) pend -> mpinv (Some c') pend.
Proof. intros [H1 H2] H e He. destruct (H e He) as (Ha&Hb&Hc&Hd). split; [done|]. split; [done|]. split; auto. Qed.
Lemma mpinv_none c pend : mpinv c pend -> mpinv None pend.
Proof. intros H e He. destruct (H e He) as (?&?&_). done. Qed.

Lemma ms_hash_children_amap h cs : ms_hash_children E h (amap cs) = hash_children menv_c h cs.
Proof. revert h. induction cs as [|[x g] cs IH]; intros h; simpl; [done|]. by destruct (_ =? _)%N. Qed.
Lemma hash_children_none h cs : hash_children menv_c h cs = None -> exists e, e ∈ cs /\ e.1 = 0%N.
Proof.
  revert h. induction cs as [|e cs IH]; intros h; simpl; [done|]. destruct (N.eqb_spec e.1 0) as [H|H].
  - intros _. exists e. split; [left|done].
  - intros (e'&He&H0)%IH. exists e'. split; [by right|done].
Qed.
Lemma nhash_kids g : gis_node g = true ->
  nhash g = m_hfin E (fold_left (fun h g => m_hu64 E h (nhash g)) (kids g) (m_hkind E (m_hinit E) (gkind g))).
Proof. destruct g as [a k tl cs|]; [|done]. intros _. apply (node_hash_node menv_c). Qed.
Lemma stored_same m l1 l2 : Forall (stored m) l1 -> Forall (stored m) l2 -> map gaddr l1 = map gaddr l2 -> l1 = l2.
Proof.
  revert l2. induction l1 as [|x l1 IH]; intros [|y l2]; try done. intros [Hx H1]%Forall_cons [Hy H2]%Forall_cons [= Hxy Heq].
  f_equal; [by eapply stored_det|by apply IH].
Qed.

(** building a node from the pending elements *)
Lemma gs_try_new_ok pr k els st L :
  gok (gmm st) (els ++ L) -> nodes_wf pr els ->
  exists r st', gs_try (gs_new al pr k (map Own (map gaddr els))) st = (Ok r, st') /\
    match r with
    | Some a => exists g, gaddr g = a /\ gis_node g = true /\ gkind g = k /\ kids g = els /\ gok (gmm st') (g :: L) /\ nodes_wf pr [g] /\
        gbuildable pr (map erase els) = true
    | None => exists g, gok (gmm st') (g :: L) /\ erase g = Node k (gwritten pr [] (map erase els)) /\ gbuildable pr (map erase els) = false
    end.
Proof using Hal.
  intros Hi Hw. destruct (gs_new_own al pr k els st L Hal Hi) as (r&st'&Em&Hb).
  pose proof (built_spec pr k els els L r (gmm st') [] [] Hw Hb) as Hs. unfold s_new in Hs.
  unfold gs_try. rewrite Em. destruct Hb as (a&_&Hb).
  destruct (gbuildable pr (map erase els)) eqn:Eb.
  - destruct Hs as [(a'&g&->&Ha&He&Hg&Hwg&_)|(g&_&_&Hn)]; [|congruence].
    eexists _, st'. split; [done|]. exists g. split; [done|].
    destruct (green_new pr a k els) as [g2|] eqn:Eg; [|by destruct Hb as [? _]].
    destruct Hb as [[= ->] Hok2]. assert (g = g2) as ->.
    { destruct (green_new_shape _ _ _ _ _ Eg) as (?&?&->&_).
      eapply (stored_det (gmm st')); [eapply gok_stored; [exact Hg|left]|eapply gok_stored; [exact Hok2|left]|done]. }
    destruct (green_new_shape _ _ _ _ _ Eg) as (tl&cs&->&Hcs). split; [done|]. split; [done|]. split; [exact Hcs|]. done.
  - destruct Hs as [(a'&g&_&_&_&_&_&Hn)|(g&->&Hg&Hn)]; [congruence|].
    eexists _, st'. split; [done|]. exists g. split; [done|]. split; [congruence|done].
Qed.
Lemma ms_node_matches_ok k cref g : ms_node_matches k (amap cref) (gcell_of g) = true <->
  gis_node g = true /\ gkind g = k /\ map gaddr (kids g) = map gaddr (map snd cref).
Proof.
  destruct g as [a k' tl cs|a k' s]; simpl; [|naive_solver].
  rewrite !andb_true_iff, N.eqb_eq, Nat.eqb_eq, bool_decide_eq_true. unfold kids, amap. simpl. rewrite !map_map, !map_length. simpl. split; [naive_solver|]. intros (_&->&H). split; [|done]. split; [done|].
  apply (f_equal length) in H. by rewrite !map_length in H.
Qed.
(** proof device, no counterpart in the code *)
Definition opt_entry {A} (r : option A) : list A := match r with Some e => [e] | None => [] end.
(** proof device, no counterpart in the code *)
Definition entry_addr (e : N * green) : N * addr := (e.1, gaddr e.2).
Lemma gs_cache_node_ok pr c k cs n st L :
  gok (gmm st) (pc_elems c ++ map snd cs ++ L) -> nodes_wf pr (pc_elems c ++ map snd cs) -> mcinv pr c -> mpinv (Some c) cs -> n <= length cs ->
  exists r c' lkg st', gs_cache_node E al pr (cmap c) k (amap cs) n st =
      (Ok (option_map entry_addr r, amap (take n cs), cmap c'), st') /\
    mcinv pr c' /\ cgrow c c' /\ gok (gmm st') (pc_elems c' ++ map snd (take n cs ++ opt_entry r) ++ lkg ++ L) /\
    nodes_wf pr (pc_elems c' ++ map snd (opt_entry r)) /\
    match r with
    | Some e => lkg = [] /\ gis_node e.2 = true /\ gkind e.2 = k /\ kids e.2 = map snd (drop n cs) /\
        gbuildable pr (map erase (map snd (drop n cs))) = true /\ hashed e /\ zero_large e /\ in_cache c' e
    | None => map erase lkg = [Node k (gwritten pr [] (map erase (map snd (drop n cs))))] /\
        gbuildable pr (map erase (map snd (drop n cs))) = false
    end.
Proof using Hmok Hal.
  intros Hi Hw Hc Hp Hn. unfold gs_cache_node. rewrite amap_length. destruct (Nat.ltb_spec (length cs) n); [lia|].
  rewrite amap_take, amap_drop, amap_length, amap_snd, ms_hash_children_amap.
  set (cref := drop n cs). set (rest := take n cs).
  assert (Hcs : map snd cs = map snd rest ++ map snd cref) by (rewrite <-map_app; unfold rest, cref; by rewrite take_drop).
  assert (Hi1 : gok (gmm st) (map snd cref ++ pc_elems c ++ map snd rest ++ L)).
  { eapply gok_perm; [|exact Hi]. rewrite Hcs, <-!app_assoc. rewrite (app_assoc (pc_elems c)), Permutation_app_swap_app, <-!app_assoc. done. }
  assert (Hwc : nodes_wf pr (map snd cref)).
  { eapply nodes_wf_sub; [|exact Hw]. intros x Hx. rewrite Hcs. set_solver. }
  assert (Hwe : nodes_wf pr (pc_elems c)).
  { eapply nodes_wf_sub; [|exact Hw]. intros x Hx. set_solver. }
  assert (Hperm : forall (x : green) l, x :: pc_elems c ++ map snd rest ++ l ≡ₚ pc_elems c ++ (map snd rest ++ [x]) ++ l).
  { intros x l. rewrite <-(app_assoc (map snd rest)). simpl. by rewrite !app_assoc, <-Permutation_middle. }
  (* when the cache is not used *)
  assert (Hun : forall st, gok (gmm st) (map snd cref ++ pc_elems c ++ map snd rest ++ L) ->
    ((forall x, m_hfin E x <> 0%N) -> small (Node k (map erase (map snd cref))) = false) ->
    exists r c' lkg st', (node ← gs_try (gs_new al pr k (map Own (map gaddr (map snd cref))));
        mret (match node with Some a => Some (0%N, a) | None => None end, amap rest, cmap c)) st =
      (Ok (option_map entry_addr r, amap rest, cmap c'), st') /\
    mcinv pr c' /\ cgrow c c' /\ gok (gmm st') (pc_elems c' ++ map snd (rest ++ opt_entry r) ++ lkg ++ L) /\
    nodes_wf pr (pc_elems c' ++ map snd (opt_entry r)) /\
    match r with
    | Some e => lkg = [] /\ gis_node e.2 = true /\ gkind e.2 = k /\ kids e.2 = map snd cref /\
        gbuildable pr (map erase (map snd cref)) = true /\ hashed e /\ zero_large e /\ in_cache c' e
    | None => map erase lkg = [Node k (gwritten pr [] (map erase (map snd cref)))] /\ gbuildable pr (map erase (map snd cref)) = false
    end).
  { clear st Hi Hi1. intros st Hi Hz. destruct (gs_try_new_ok pr k (map snd cref) st _ Hi Hwc) as ([a|]&st1&E1&Hr); (erewrite gs_bind_ok; [|exact E1]).
    - destruct Hr as (g&<-&Hg&Hk&Hkids&Hi1&Hwg&Hbd). exists (Some (0%N, g)), c, [], st1. split; [done|]. split; [done|]. split; [done|].
      split. { eapply gok_perm; [|exact Hi1]. rewrite map_app. apply Hperm. }
      split; [by apply nodes_wf_app|]. do 5 (split; [done|]). split; [by intros ?|]. split; [|split; [simpl; congruence|done]].
      intros Hf _. simpl. rewrite <-(Hz Hf), <-Hkids, <-Hk. f_equal. destruct g; [|done]. simpl. unfold kids. simpl. by rewrite map_map.
    - destruct Hr as (g&Hi1&He&Hbd). exists None, c, [g], st1. split; [done|]. split; [done|]. split; [done|].
      split. { eapply gok_perm; [|exact Hi1]. simpl. rewrite app_nil_r. rewrite (app_assoc _ _ L), (app_assoc _ _ (g :: L)). by rewrite Permutation_middle. }
      split; [by rewrite app_nil_r|]. split; [|done]. simpl. by rewrite He. }
  destruct (Nat.ltb_spec 3 (length cref)) as [Hl|Hl].
  { apply (Hun st Hi1). intros _. simpl. rewrite !map_length. destruct (Nat.leb_spec (length cref) 3); [lia|done]. }
  assert (Hhc : forall e, e ∈ cref -> e.1 <> 0%N -> e.1 = nhash e.2).
  { intros e He. apply Hp. by eapply elem_of_drop. }
  destruct (hash_children menv_c (m_hkind E (m_hinit E) k) cref) as [h|] eqn:Eh.
  2:{ apply (Hun st Hi1). intros Hf. simpl. apply andb_false_iff. right. apply hash_children_none in Eh as (e&He&H0).
      apply not_true_iff_false. intros Hall. rewrite forallb_forall in Hall.
      assert (Hsm : small (erase e.2) = true).
      { apply Hall. apply in_map, in_map. by apply elem_of_list_In. }
      destruct (Hp e ltac:(by eapply elem_of_drop)) as (_&Hz&_). rewrite Hz in Hsm; done. }
  destruct (hash_children_node_hash menv_c cref _ _ Hhc Eh) as [Hh Hnz].
  assert (Hkin : forall x, x ∈ map snd cref -> x ∈ pc_elems c).
  { intros x (h'&Hx)%elem_of_snd. pose proof (Hnz _ Hx) as Hx0. simpl in Hx0.
    destruct (Hp (h', x) ltac:(by eapply elem_of_drop)) as (_&_&Ht&Hno). simpl in *. unfold pc_elems. apply elem_of_app.
    destruct (gis_node x); [left; by apply Hno|right; by apply Ht]. }
  assert (HF : Forall (stored (gmm st)) (map snd (pc_nodes c))).
  { apply Forall_forall. intros x Hx. eapply gok_stored; [done|]. unfold pc_elems. set_solver. }
  destruct (gs_probe_ok (pc_nodes c) (m_hfin E h) (ms_node_matches k (amap cref)) st Hmok HF) as (r&st1&E1&Hm1&Hr).
  simpl. erewrite gs_bind_ok; [|exact E1]. rewrite <-Hm1 in Hi1, HF. destruct r as [a|].
  - destruct Hr as (i&h'&g&Hg&->&(Hgn&Hk&Hka)%ms_node_matches_ok).
    assert (Hin : (h', g) ∈ pc_nodes c) by by eapply elem_of_list_lookup_2.
    assert (Hgin : g ∈ map snd (pc_nodes c)) by (apply elem_of_snd; eauto).
    rewrite Forall_forall in HF.
    assert (Hkids : kids g = map snd cref).
    { eapply (stored_same (gmm st1)); [..|done].
      - apply (stored_inv _ _ (HF g Hgin)).
      - apply Forall_forall. intros x Hx. eapply gok_stored; [exact Hi1|]. set_solver. }
    destruct (gs_drops_ok (map snd cref) st1 _ Hi1) as (st2&E2&Hi2&_). erewrite gs_bind_ok; [|exact E2].
    destruct (gs_clone_gok st2 _ g Hi2) as (st3&E3&Hi3&_). { eapply gok_stored; [exact Hi2|]. unfold pc_elems. set_solver. }
    erewrite gs_bind_ok; [|exact E3].
    exists (Some (m_hfin E h, g)), c, [], st3. split; [done|]. split; [done|]. split; [done|].
    split. { eapply gok_perm; [|exact Hi3]. rewrite map_app. apply Hperm. }
    split. { apply nodes_wf_app; [done|]. eapply nodes_wf_sub; [|exact Hwe]. simpl. intros x ->%elem_of_list_singleton. unfold pc_elems. set_solver. }
    destruct Hc as [H1 H2 H3 H4 H5]. destruct (H1 _ _ Hin) as (_&Hhh&Hbd). rewrite Hkids in Hbd.
    do 5 (split; [done|]). split.
    { intros _. simpl. rewrite nhash_kids by done. by rewrite Hkids, Hk, Hh. }
    split; [intros Hf; by intros ?%Hf|]. split; simpl; [congruence|done].
  - destruct (gs_try_new_ok pr k (map snd cref) st1 _ Hi1 Hwc) as ([a|]&st2&E2&Hr2); (erewrite gs_bind_ok; [|exact E2]).
    + destruct Hr2 as (g&<-&Hg&Hk&Hkids&Hi2&Hwg&Hbd).
      destruct (gs_clone_gok st2 _ g Hi2) as (st3&E3&Hi3&_); [eapply gok_stored; [done|left]|].
      erewrite gs_bind_ok; [|exact E3].
      destruct (gs_insert_entry_ok (pc_nodes c) (m_hfin E h) g st3) as (g0&st4&E4&Hm4).
      { apply Forall_forall. intros x Hx. eapply gok_stored; [exact Hi3|]. unfold pc_elems. set_solver. }
      erewrite gs_bind_ok; [|exact E4].
      set (c' := PC ((m_hfin E h, g) :: rehash g0 (pc_nodes c)) (pc_tokens c)).
      exists (Some (m_hfin E h, g)), c', [], st4. split; [done|].
      assert (Hgr : cgrow c c').
      { split; [|done]. intros x Hx. unfold c'. simpl. rewrite rehash_snd. by right. }
      assert (Hgh : m_hfin E h = nhash g).
      { rewrite nhash_kids by done. by rewrite Hkids, Hk, Hh. }
      destruct Hc as [H1 H2 H3 H4 H5].
      assert (Hold : forall h1 x, (h1, x) ∈ pc_nodes c' -> (h1 = m_hfin E h /\ x = g) \/ (h1, x) ∈ rehash g0 (pc_nodes c)).
      { intros h1 x. unfold c'. simpl. rewrite elem_of_cons. intros [[= -> ->]|?]; auto. }
      assert (Hnew : forall h1 x, (h1, x) ∈ pc_nodes c -> gkind x = gkind g -> kids x <> kids g).
      { intros h1 x Hx Hxk Hxs. destruct (H1 _ _ Hx) as (Hxn&->&_). 
        assert (Heq : nhash x = m_hfin E h) by (by rewrite Hgh, !nhash_kids, Hxk, Hxs). rewrite Heq in Hx.
        apply Hr in Hx. apply not_true_iff_false in Hx. apply Hx. apply ms_node_matches_ok. split; [done|]. split; [congruence|].
        by rewrite Hxs, Hkids. }
      split; [|split; [done|split; [|split; [|do 5 (split; [done|]); split; [by intros _|split]]]]].
      * split.
        -- intros h1 x [[-> ->]|Hx]%Hold; [by rewrite Hkids|]. pose proof (elem_of_rehash _ _ _ _ Hx) as [h' Hx'].
           destruct (H1 _ _ Hx') as (?&?&?). split; [done|]. split; [|done].
           eapply rehash_hash; [|done]. intros h2 g2 Hin. by apply H1.
        -- intros h1 x y [[-> ->]|Hx]%Hold Hy; (eapply cgrow_elems; [done|]).
           ++ rewrite Hkids in Hy. by apply Hkin.
           ++ apply elem_of_rehash in Hx as [h' Hx]. by eapply H2.
        -- exact H3.
        -- intros h1 g1 h2 g2 [[-> ->]|Hx1]%Hold [[-> ->]|Hx2]%Hold Hke Hse; [done|..].
           ++ apply elem_of_rehash in Hx2 as [h' Hx']. by eapply Hnew in Hx'.
           ++ apply elem_of_rehash in Hx1 as [h' Hx']. by eapply Hnew in Hx'.
           ++ apply elem_of_rehash in Hx1 as [h1' Hx1], Hx2 as [h2' Hx2]. by eapply H4.
        -- exact H5.
      * rewrite Hm4. eapply gok_perm; [|exact Hi3]. rewrite map_app. unfold pc_elems, c'. simpl. rewrite rehash_snd. constructor. apply Hperm.
      * unfold pc_elems, c'. simpl. rewrite rehash_snd. apply (nodes_wf_app pr [g] (pc_elems c ++ [g])); [done|]. by apply nodes_wf_app.
      * intros Hf. by intros ?%Hf.
      * split; simpl; [congruence|]. intros _ _. left.
    + destruct Hr2 as (g&Hi2&He&Hbd). exists None, c, [g], st2. split; [done|]. split; [done|]. split; [done|].
      split. { eapply gok_perm; [|exact Hi2]. simpl. rewrite app_nil_r. rewrite (app_assoc _ _ L), (app_assoc _ _ (g :: L)). by rewrite Permutation_middle. }
      split; [by rewrite app_nil_r|]. split; [|done]. simpl. by rewrite He.
Qed.

(** ** The builder *)
(** proof device, no counterpart in the code *)
Definition sbrel (ps : list (kind * nat)) (cs : list (N * green)) (s : sbuilder) : Prop :=
  ps = parents_of (outer s) /\ map (fun e => erase e.2) cs = sb_pending s.
Lemma gs_bop_ok pr o c ps cs s st L s' ok lks :
  gok (gmm st) (pc_elems c ++ map snd cs ++ L) -> nodes_wf pr (pc_elems c ++ map snd cs) -> mcinv pr c -> mpinv (Some c) cs ->
  sbrel ps cs s -> s_bop pr s o = (s', ok, lks) ->
  exists c' ps' cs' lkg st', gs_bop E al pr o (cmap c) ps (amap cs) st = (Ok (ok, cmap c', ps', amap cs'), st') /\
    lks = map erase lkg /\ gok (gmm st') (pc_elems c' ++ map snd cs' ++ lkg ++ L) /\ nodes_wf pr (pc_elems c' ++ map snd cs') /\
    mcinv pr c' /\ cgrow c c' /\ mpinv (Some c') cs' /\ sbrel ps' cs' s'.
Proof using Hmok Hal.
  intros Hi Hw Hc Hp [HP HC] Hs.
  assert (Hlen : length cs = sb_outer_count s + length (current s)).
  { rewrite <-sb_pending_length, <-HC. by rewrite map_length. }
  destruct o as [k t|k| |cp k]; simpl in Hs.
  - (* token *)
    assert (s_bop pr s (BToken k t) = (s', ok, lks)) as Hs' by exact Hs. clear Hs.
    assert (s' = {| outer := outer s; current := current s ++ [Token k t] |} /\ ok = true /\ lks = []) as (->&->&->).
    { simpl in Hs'. destruct (outer s) as [|[? ?] ?]; by injection Hs' as <- <- <-. }
    destruct (gs_cache_token_ok pr c k t st _ Hi Hc) as (g&c'&st'&Em&Hi'&Hc'&Hgr&Hn&He&Hin).
    assert (Hgn : gis_node g = false) by by destruct g.
    exists c', ps, (cs ++ [(ms_token_hash E k t, g)]), [], st'.
    simpl. erewrite gs_bind_ok; [|exact Em]. split; [by rewrite amap_app|]. split; [done|].
    assert (Hgr' : forall x, x ∈ pc_elems c' -> x ∈ pc_elems c \/ gis_node x = false).
    { intros x. unfold pc_elems. rewrite Hn, !elem_of_app. intros [?|(h&Hx)%elem_of_snd]; [by auto|]. right. by apply (mc_toks _ _ Hc' _ _ Hx). }
    split. { eapply gok_perm; [|exact Hi']. f_equiv. rewrite map_app. simpl. by rewrite <-app_assoc, Permutation_middle. }
    split.
    { intros Hpr x Hx Hxn. apply Hw; [done| |done]. rewrite map_app in Hx. simpl in Hx.
      apply elem_of_app in Hx as [Hx|[Hx| ->%elem_of_list_singleton]%elem_of_app]; [|apply elem_of_app; by right|congruence].
      destruct (Hgr' x Hx); [apply elem_of_app; by left|congruence]. }
    split; [done|]. split; [done|]. split.
    + intros e [He'| ->%elem_of_list_singleton]%elem_of_app; [by eapply mpinv_grow|]. split; [|split; [|split]].
      * intros _. simpl. destruct g; [done|]. simpl in He. by injection He as -> ->.
      * intros Hf Hz. simpl in Hz. by apply Hf in Hz.
      * done.
      * simpl. congruence.
    + split; [done|]. rewrite map_app, HC. simpl. rewrite He. unfold sb_pending. simpl. by rewrite app_assoc.
  - (* start_node *)
    assert (s' = {| outer := (k, current s) :: outer s; current := [] |} /\ ok = true /\ lks = []) as (->&->&->).
    { destruct (outer s) as [|[? ?] ?]; by injection Hs as <- <- <-. }
    exists c, ((k, length cs) :: ps), cs, [], st. simpl. rewrite amap_length. do 3 (split; [done|]). split; [done|]. split; [done|]. split; [done|].
    split; [done|]. split; simpl.
    + rewrite HP. f_equal. f_equal. rewrite Hlen. unfold sb_outer_count. rewrite app_length. lia.
    + rewrite HC. unfold sb_pending. simpl. rewrite concat_app. simpl. by rewrite !app_nil_r.
  - (* finish_node *)
    destruct (outer s) as [|[k before] out] eqn:Eo; simpl in HP; subst ps.
    { injection Hs as <- <- <-. exists c, [], cs, [], st. do 7 (split; [done|]). split; [by rewrite Eo|done]. }
    simpl. set (n := length (before ++ concat (map snd out))).
    assert (Hn : n = sb_outer_count s) by (unfold sb_outer_count; by rewrite Eo).
    assert (Hpre : length (concat (rev (map snd out)) ++ before) = n).
    { unfold n. rewrite !app_length, length_concat_rev. lia. }
    assert (HC' : map (fun e => erase e.2) cs = (concat (rev (map snd out)) ++ before) ++ current s).
    { rewrite HC. unfold sb_pending. rewrite Eo. simpl. rewrite concat_app. simpl. by rewrite app_nil_r. }
    assert (Hdrop : map erase (map snd (drop n cs)) = current s).
    { rewrite <- !drop_map, map_map. rewrite HC'. rewrite drop_app_alt by done. done. }
    assert (Htake : map (fun e => erase e.2) (take n cs) = concat (rev (map snd out)) ++ before).
    { rewrite <- take_map. rewrite HC'. rewrite take_app_alt by done. done. }
    destruct (gs_cache_node_ok pr c k cs n st L Hi Hw Hc Hp ltac:(lia)) as (r&c'&lkg&st'&Em&Hc'&Hgr&Hi'&Hw'&Hr).
    erewrite gs_bind_ok; [|exact Em]. rewrite Hdrop in Hr.
    assert (Hw2 : nodes_wf pr (pc_elems c' ++ map snd (take n cs ++ opt_entry r))).
    { rewrite map_app. intros Hpr x [Hx|[Hx|Hx]%elem_of_app]%elem_of_app Hxn.
      - apply Hw'; [done|apply elem_of_app; auto|done].
      - apply Hw; [done| |done]. apply elem_of_app. right. apply elem_of_map in Hx as (e&->&Hx). apply elem_of_map. exists e. split; [done|].
        by eapply elem_of_take'.
      - apply Hw'; [done|apply elem_of_app; auto|done]. }
    destruct r as [e|].
    + destruct Hr as (->&Hg&Hk&Hkids&Hbd&Hh&Hz&Hic). rewrite Hbd in Hs. injection Hs as <- <- <-.
      exists c', (parents_of out), (take n cs ++ [e]), [], st'. split; [by rewrite amap_app|]. split; [done|]. split; [done|]. split; [done|]. split; [done|]. split; [done|].
      split.
      * intros e' [He'| ->%elem_of_list_singleton]%elem_of_app; [|done]. eapply mpinv_grow; [done|done|]. by eapply elem_of_take'.
      * split; [done|]. rewrite map_app, Htake. unfold sb_pending. simpl. rewrite <-app_assoc. do 3 f_equal.
        rewrite <-Hdrop, <-Hkids, <-Hk. destruct e as [h [a k' tl es|]]; [|done]. simpl. unfold kids. simpl. by rewrite map_map.
    + destruct Hr as (Hlk&Hbd). rewrite Hbd in Hs. injection Hs as <- <- <-.
      exists c', (parents_of out), (take n cs), lkg, st'. simpl in *. rewrite app_nil_r in Hi', Hw2. split; [done|]. split; [done|]. split; [done|]. split; [done|]. split; [done|]. split; [done|].
      split.
      * intros e' He'. eapply mpinv_grow; [done|done|]. by eapply elem_of_take'.
      * split; [done|]. by rewrite Htake.
  - (* start_node_at *)
    simpl. rewrite amap_length.
    assert (Hcp : (sb_outer_count s <=? cp) = match ps with (_, f) :: _ => f <=? cp | [] => true end).
    { rewrite HP. unfold sb_outer_count. destruct (outer s) as [|[k0 bf] out]; [done|]. done. }
    rewrite <-Hcp.
    assert (Hs2 : match sb_op s (BStartNodeAt cp k) with Some s' => (s', true, []) | None => (s, false, []) end = (s', ok, lks)).
    { rewrite <-Hs. simpl. by destruct (outer s) as [|[? ?] ?]. }
    clear Hs. simpl in Hs2.
    destruct (Nat.leb_spec cp (length cs)) as [H1|H1]; simpl.
    2:{ rewrite (proj2 (Nat.leb_gt cp _)) in Hs2 by lia. rewrite andb_false_r in Hs2. injection Hs2 as <- <- <-.
        exists c, ps, cs, [], st. done. }
    rewrite (proj2 (Nat.leb_le cp _)) in Hs2 by lia. rewrite andb_true_r in Hs2.
    destruct (Nat.leb_spec (sb_outer_count s) cp) as [H2|H2]; injection Hs2 as <- <- <-.
    + exists c, ((k, cp) :: ps), cs, [], st. do 7 (split; [done|]). split; simpl.
      * rewrite HP. f_equal. f_equal. rewrite app_length, take_length. unfold sb_outer_count in *. lia.
      * rewrite HC. unfold sb_pending. simpl. rewrite concat_app. simpl. rewrite app_nil_r, <- app_assoc. by rewrite take_drop.
    + by exists c, ps, cs, [], st.
Qed.

(** ** Dropping caches and builders *)
Lemma gs_drop_table_ok tab st L :
  gok (gmm st) (map snd tab ++ L) -> exists st', gs_drop_table E (amap tab) st = (Ok (), st') /\ gok (gmm st') L.
Proof using Hmok.
  intros Hi. unfold gs_drop_table, gs_tick. erewrite gs_bind_ok; [|done]. set (st1 := GST (gmm st) (S (gck st))).
  destruct (Permutation_map_inv _ _ (proj2 Hmok (gck st) (amap tab))) as (tab'&Heq&Hp). rewrite Heq.
  change (map (fun e => (e.1, gaddr e.2)) tab') with (amap tab'). rewrite amap_snd.
  destruct (gs_drops_ok (map snd tab') st1 L) as (st'&E'&Hi'&_).
  - eapply gok_perm; [|exact Hi]. by rewrite Hp.
  - eauto.
Qed.
Lemma gs_drop_cache_ok c st L :
  gok (gmm st) (pc_elems c ++ L) -> exists st', gs_drop_cache E (cmap c) st = (Ok (), st') /\ gok (gmm st') L.
Proof using Hmok.
  intros Hi. unfold pc_elems in Hi. rewrite <-app_assoc in Hi. unfold gs_drop_cache.
  destruct (gs_drop_table_ok _ _ _ Hi) as (st1&E1&Hi1). destruct (gs_drop_table_ok _ _ _ Hi1) as (st2&E2&Hi2).
  exists st2. simpl. erewrite gs_bind_ok; [|exact E1]. done.
Qed.
Lemma gs_drop_builder_ok b st L :
  gok (gmm st) (pb_elems b ++ L) -> exists st', gs_drop_builder E (bmap b) st = (Ok (), st') /\ gok (gmm st') L.
Proof using Hmok.
  intros Hi. unfold pb_elems in Hi. rewrite <-app_assoc in Hi. unfold gs_drop_builder. destruct b as [[c|i] ps cs]; simpl in *.
  - destruct (gs_drop_cache_ok _ _ _ Hi) as (st1&E1&Hi1). destruct (gs_drops_ok _ _ _ Hi1) as (st2&E2&Hi2&_).
    exists st2. erewrite gs_bind_ok; [|exact E1]. by rewrite amap_snd.
  - destruct (gs_drops_ok _ _ _ Hi) as (st2&E2&Hi2&_). exists st2. erewrite gs_bind_ok; [|done]. by rewrite amap_snd.
Qed.
Lemma gs_finish_ok b s st L :
  gok (gmm st) (pb_elems b ++ L) -> sbrel (pb_parents b) (pb_children b) s ->
  match sb_pending s with
  | [Node k ts] => exists g st', gs_finish E (bmap b) st = (Ok (gaddr g), st') /\ erase g = Node k ts /\ g ∈ pb_elems b /\ gok (gmm st') (g :: L)
  | _ => exists st', gs_finish E (bmap b) st = (Err Panic, st') /\ gok (gmm st') L
  end.
Proof using Hmok Hal.
  intros Hi [_ HC]. unfold gs_finish.
  assert (Hpan : exists st', gs_finally (gs_err Panic : gsm addr) (gs_drop_builder E (bmap b)) st = (Err Panic, st') /\ gok (gmm st') L).
  { destruct (gs_drop_builder_ok b st L Hi) as (st'&E'&Hi'). exists st'. split; [|done]. unfold gs_finally. simpl.
    erewrite gs_bind_ok; [|exact E']. done. }
  destruct b as [cow ps cs]. simpl in HC |- *.
  destruct cs as [|[h g] [|e2 cs]]; simpl in HC; rewrite <-HC; [exact Hpan| |].
  2:{ simpl. destruct (erase g) as [|]; exact Hpan. }
  assert (Hst : stored (gmm st) g). { eapply gok_stored; [exact Hi|]. unfold pb_elems. simpl. set_solver. }
  simpl. erewrite gs_bind_ok; [|by apply gs_cell_ok]. destruct g as [a k tl es|a k s0].
  - simpl. set (g := GNode a k tl es) in *. 
    destruct (gs_drop_builder_ok (PB cow ps []) st (g :: L)) as (st'&E'&Hi').
    { eapply gok_perm; [|exact Hi]. unfold pb_elems. simpl. rewrite app_nil_r, <-app_assoc. done. }
    exists g, st'. split; [|split; [done|split; [|done]]].
    + unfold gs_finally. simpl. unfold bmap in E'. simpl in E'. erewrite gs_bind_ok; [|exact E']. done.
    + unfold pb_elems. simpl. set_solver.
  - exact Hpan.
Qed.

(** ** Programs *)
(** proof device, no counterpart in the code *)
Definition wbrel (pr : profile) (gcs : list (option (pcache green))) (gb : option (pbuilder green)) (sb : option (option nat * sbuilder)) : Prop :=
  match gb, sb with
  | Some b, Some (own, s) =>
      match pb_cache b with Owned c => own = None /\ mcinv pr c | Borrowed i => own = Some i /\ i < length gcs end /\
      sbrel (pb_parents b) (pb_children b) s /\ mpinv (cow_get gcs b) (pb_children b)
  | None, None => True
  | _, _ => False
  end.
(** proof device, no counterpart in the code *)
Record wrel (pr : profile) (w : world) (sw : sworld) genv lkg gcs gbs : Prop := {
  wr_w : w = W (map (option_map gaddr) genv) (map (option_map cmap) gcs) (map (option_map bmap) gbs) (w_mem w);
  wr_env : sw_env sw = map (option_map erase) genv;
  wr_leaks : sw_leaks sw = map erase lkg;
  wr_caches : sw_caches sw = map (option_map (fun _ => ())) gcs;
  wr_builders : Forall2 (wbrel pr gcs) gbs (sw_builders sw);
  wr_mem : gok (gmm (w_mem w)) (hs_of genv ++ lkg ++ elems_of pc_elems gcs ++ elems_of pb_elems gbs);
  wr_wf : nodes_wf pr (hs_of genv ++ elems_of pc_elems gcs ++ elems_of pb_elems gbs);
  wr_inv : forall i c, gcs !! i = Some (Some c) -> mcinv pr c;
}.
Lemma wrel_init pr : wrel pr world0 sworld0 [] [] [] [].
Proof.
  split; try done; simpl.
  - constructor.
  - apply gok_empty.
  - intros _ e He. by apply elem_of_nil in He.
Qed.
(** a cache changes; the builders that do not own it only see it grow or vanish *)
Lemma wbrel_caches pr gcs gcs' gbs sbs :
  length gcs <= length gcs' ->
  (forall i, i < length gcs -> match g_peek i gcs' with
     | None => True
     | Some c' => exists c, g_peek i gcs = Some c /\ cgrow c c'
     end) ->
  Forall2 (wbrel pr gcs) gbs sbs -> Forall2 (wbrel pr gcs') gbs sbs.
Proof.
  intros Hl Hg HF. eapply Forall2_impl; [exact HF|]. clear HF. intros [b|] [[own s]|]; try done. simpl. intros (Ho&Hs&Hp). split; [|split; [done|]].
  - destruct (pb_cache b); [done|]. destruct Ho. split; [done|lia].
  - unfold cow_get in *. destruct (pb_cache b) as [c|i]; [done|]. destruct Ho as [_ Hi]. specialize (Hg i Hi).
    destruct (g_peek i gcs') as [c'|]; [|by eapply mpinv_none]. destruct Hg as (c&Hc&Hgr). rewrite Hc in Hp. by eapply mpinv_grow.
Qed.

Lemma wb_peek pr gcs gbs sbs i own s : Forall2 (wbrel pr gcs) gbs sbs -> g_peek i sbs = Some (own, s) ->
  exists b, g_peek i gbs = Some b /\ wbrel pr gcs (Some b) (Some (own, s)).
Proof.
  intros HF Hi%g_peek_Some. destruct (Forall2_lookup_r _ _ _ _ _ HF Hi) as ([b|]&Hb&Hr); [|done]. exists b. by rewrite g_peek_Some.
Qed.
Lemma wb_alive pr gcs b own s : wbrel pr gcs (Some b) (Some (own, s)) -> s_alive (map (option_map (fun _ => ())) gcs) own = true ->
  exists c, cow_get gcs b = Some c.
Proof.
  intros (Ho&_) Ha. unfold cow_get. destruct (pb_cache b) as [c|i]; [eauto|]. destruct Ho as [-> _]. simpl in Ha. rewrite g_peek_map in Ha.
  destruct (g_peek i gcs); [eauto|done].
Qed.
Lemma cow_get_map gcs b : cow_get (map (option_map cmap) gcs) (bmap b) = option_map cmap (cow_get gcs b).
Proof. unfold cow_get. destruct b as [[c|i] ps cs]; simpl; [done|]. apply g_peek_map. Qed.
Lemma w_step_ok pr o w sw b sw' genv lkg gcs gbs :
  wrel pr w sw genv lkg gcs gbs -> sw_step pr o sw = Some (b, sw') ->
  exists w' genv' lkg' gcs' gbs', w_step E al pr o w = Ok (b, w') /\ wrel pr w' sw' genv' lkg' gcs' gbs'.
Proof using Hmok Hal.
  intros [Hw He Hl Hcs Hbs Hi Hwf Hinv] Hs. destruct sw as [senv slk scs sbs]. cbn [sw_env sw_leaks sw_caches sw_builders] in *. subst senv slk scs.
  rewrite Hw. remember (w_mem w) as st eqn:Est. clear Est Hw w.
  destruct o as [o| |i| |i|i o|i|i]; cbn [sw_step w_step] in *.
  - (* a call on handles *)
    destruct (s_gstep pr o _) as [[b0 [env' lk']]|] eqn:Eg; [|done]. injection Hs as <- <-.
    destruct (g_step_okx al pr Hal (elems_of pc_elems gcs ++ elems_of pb_elems gbs) o (map (option_map gaddr) genv) st
      (map (option_map erase) genv, map erase lkg) b0 (env', lk')) as (env2&st2&E2&genv2&lkg2&->&[= -> ->]&Hi2&Hw2).
    + exists genv, lkg. split; [done|]. split; [done|]. split; [done|]. eapply nodes_wf_sub; [|exact Hwf]. set_solver.
    + exact Eg.
    + rewrite E2. simpl. eexists _, genv2, lkg2, gcs, gbs. split; [done|]. split; try done.
      apply nodes_wf_app; [done|]. eapply nodes_wf_sub; [|exact Hwf]. set_solver.
  - (* new cache *)
    injection Hs as <- <-. eexists _, genv, lkg, (gcs ++ [Some (PC [] [])]), gbs.
    split; [done|]. split; try done; simpl.
    + by rewrite map_app.
    + by rewrite map_app.
    + eapply wbrel_caches; [..|exact Hbs].
      * rewrite app_length. simpl. lia.
      * intros i Hlt. unfold g_peek. rewrite lookup_app_l by done. destruct (gcs !! i) as [[c|]|]; simpl; [|done|done]. by exists c.
    + rewrite elems_of_app. unfold elems_of at 2. simpl. by rewrite app_nil_r.
    + rewrite elems_of_app. unfold elems_of at 2. simpl. by rewrite app_nil_r.
    + intros i c [Hl|[_ Hl]]%lookup_app_Some; [by eapply Hinv|]. destruct (i - length gcs); [|done]. injection Hl as <-. apply mcinv_empty.
  - (* drop cache *)
    rewrite g_peek_map in Hs. rewrite g_peek_map. destruct (g_peek i gcs) as [c|] eqn:Ep; [|done]. injection Hs as <- <-. simpl.
    pose proof (g_peek_lt _ _ _ Ep) as Hlt. pose proof (proj1 (g_peek_Some _ _ _) Ep) as Hlk.
    destruct (gs_drop_cache_ok c st (hs_of genv ++ lkg ++ elems_of pc_elems (<[i:=None]> gcs) ++ elems_of pb_elems gbs)) as (st'&Ed&Hi').
    { eapply gok_perm; [|exact Hi]. rewrite (elems_of_take _ gcs i c Hlk), <-!app_assoc.
      rewrite (app_assoc (hs_of genv)), (app_assoc (hs_of genv)). apply Permutation_app_swap_app. }
    rewrite Ed. eexists _, genv, lkg, (<[i := None]> gcs), gbs. split; [done|]. split; try done; simpl.
    + by rewrite map_insert_opt.
    + by rewrite map_insert_opt.
    + eapply wbrel_caches; [..|exact Hbs].
      * by rewrite insert_length.
      * intros j Hj. rewrite g_peek_insert by done. destruct (decide (i = j)); [done|]. destruct (g_peek j gcs) as [c'|]; [|done]. by exists c'.
    + eapply nodes_wf_sub; [|exact Hwf]. intros x. rewrite (elems_of_take _ gcs i c Hlk). set_solver.
    + intros j c' Hj%g_peek_Some. rewrite g_peek_insert in Hj by done. destruct (decide (i = j)); [done|]. apply g_peek_Some in Hj. by eapply Hinv.
  - (* new builder *)
    injection Hs as <- <-. eexists _, genv, lkg, gcs, (gbs ++ [Some (PB (Owned (PC [] [])) [] [])]).
    split; [done|]. split; try done; simpl.
    + by rewrite map_app.
    + apply Forall2_app; [done|]. constructor; [|constructor]. simpl. split; [split; [done|apply mcinv_empty]|]. split; [done|].
      intros e Hx. by apply elem_of_nil in Hx.
    + rewrite elems_of_app. unfold elems_of at 3. simpl. by rewrite app_nil_r.
    + rewrite elems_of_app. unfold elems_of at 3. simpl. by rewrite app_nil_r.
  - (* builder with cache *)
    rewrite g_peek_map in Hs. rewrite g_peek_map. destruct (g_peek i gcs) as [c|] eqn:Ep; [|done]. injection Hs as <- <-. simpl.
    eexists _, genv, lkg, gcs, (gbs ++ [Some (PB (Borrowed i) [] [])]).
    split; [done|]. split; try done; simpl.
    + by rewrite map_app.
    + apply Forall2_app; [done|]. constructor; [|constructor]. simpl. split; [split; [done|by eapply g_peek_lt]|]. split; [done|].
      intros e Hx. by apply elem_of_nil in Hx.
    + rewrite elems_of_app. unfold elems_of at 3. simpl. by rewrite app_nil_r.
    + rewrite elems_of_app. unfold elems_of at 3. simpl. by rewrite app_nil_r.
  - (* a call of a method *)
    destruct (g_peek i sbs) as [[own s]|] eqn:Ep; [|done]. destruct (wb_peek _ _ _ _ _ _ _ Hbs Ep) as (gb&Egb&Hb).
    destruct (s_alive _ own) eqn:Ea; [|done]. destruct (s_bop pr s o) as [[s' ok] lks] eqn:Eo. injection Hs as <- <-.
    destruct (wb_alive _ _ _ _ _ Hb Ea) as (c&Ec). rewrite g_peek_map, Egb. cbn [option_map]. rewrite cow_get_map, Ec. cbn [option_map].
    pose proof (g_peek_lt _ _ _ Egb) as Hlt. pose proof (proj1 (g_peek_Some _ _ _) Egb) as Hlk.
    destruct Hb as (Ho&Hsr&Hp). rewrite Ec in Hp.
    destruct gb as [cow ps cs]. unfold cow_get in Ec. simpl in *. destruct cow as [c0|j].
    + injection Ec as ->. destruct Ho as [-> Hc].
      destruct (gs_bop_ok pr o c ps cs s st (hs_of genv ++ lkg ++ elems_of pc_elems gcs ++ elems_of pb_elems (<[i:=None]> gbs)) s' ok lks)
        as (c'&ps'&cs'&lkg'&st'&Em&->&Hi'&Hw'&Hc'&Hgr&Hp'&Hsr'); [..|done|done|done|done|].
      { eapply gok_perm; [|exact Hi]. rewrite (elems_of_take _ gbs i _ Hlk). unfold pb_elems at 1. simpl. perm. }
      { eapply nodes_wf_sub; [|exact Hwf]. intros x Hx. rewrite (elems_of_take _ gbs i _ Hlk). unfold pb_elems at 1. simpl. set_solver. }
      rewrite Em. eexists _, genv, (lkg' ++ lkg), gcs, (<[i := Some (PB (Owned c') ps' cs')]> gbs). split; [done|]. split; try done; simpl.
      * by rewrite map_insert_opt.
      * by rewrite map_app.
      * apply Forall2_insert; [done|]. simpl. done.
      * eapply gok_perm; [|exact Hi']. rewrite (elems_of_put _ gbs i _ Hlt). unfold pb_elems at 2. simpl. perm.
      * intros Hpr x Hx Hxn. rewrite (elems_of_put _ gbs i _ Hlt) in Hx. unfold pb_elems at 1 in Hx. simpl in Hx.
        assert (x ∈ hs_of genv ++ elems_of pc_elems gcs ++ elems_of pb_elems (<[i:=None]> gbs) \/ x ∈ pc_elems c' ++ map snd cs') as [H|H] by set_solver.
        -- apply Hwf; [done| |done]. rewrite (elems_of_take _ gbs i _ Hlk). set_solver.
        -- by apply Hw'.
    + destruct Ho as [-> Hj]. pose proof (g_peek_lt _ _ _ Ec) as Hlt2. pose proof (proj1 (g_peek_Some _ _ _) Ec) as Hlk2.
      pose proof (Hinv _ _ Hlk2) as Hc.
      destruct (gs_bop_ok pr o c ps cs s st (hs_of genv ++ lkg ++ elems_of pc_elems (<[j:=None]> gcs) ++ elems_of pb_elems (<[i:=None]> gbs)) s' ok lks)
        as (c'&ps'&cs'&lkg'&st'&Em&->&Hi'&Hw'&Hc'&Hgr&Hp'&Hsr'); [..|done|done|done|done|].
      { eapply gok_perm; [|exact Hi]. rewrite (elems_of_take _ gbs i _ Hlk), (elems_of_take _ gcs j _ Hlk2). unfold pb_elems at 1. simpl. perm. }
      { eapply nodes_wf_sub; [|exact Hwf]. intros x Hx. rewrite (elems_of_take _ gbs i _ Hlk), (elems_of_take _ gcs j _ Hlk2). unfold pb_elems at 1. simpl. set_solver. }
      rewrite Em. eexists _, genv, (lkg' ++ lkg), (<[j := Some c']> gcs), (<[i := Some (PB (Borrowed j) ps' cs')]> gbs). split; [done|].
      assert (Hbs' : Forall2 (wbrel pr (<[j := Some c']> gcs)) gbs sbs).
      { apply (wbrel_caches pr gcs); [by rewrite insert_length| |exact Hbs]. intros n Hn. rewrite g_peek_insert by done.
        destruct (decide (j = n)) as [<-|]; [by exists c|]. destruct (g_peek n gcs) as [c2|]; [|done]. by exists c2. }
      split; try done; simpl.
      * by rewrite !map_insert_opt.
      * by rewrite map_app.
      * rewrite map_insert_opt. simpl. symmetry. apply list_insert_id. change (map ?f gcs) with (f <$> gcs). rewrite list_lookup_fmap, Hlk2. done.
      * apply Forall2_insert; [done|]. simpl. split; [by rewrite insert_length|]. split; [done|].
        unfold cow_get. simpl. rewrite g_peek_insert, decide_True by done. done.
      * eapply gok_perm; [|exact Hi']. rewrite (elems_of_put _ gbs i _ Hlt), (elems_of_put _ gcs j _ Hlt2). unfold pb_elems at 2. simpl. perm.
      * intros Hpr x Hx Hxn. rewrite (elems_of_put _ gbs i _ Hlt), (elems_of_put _ gcs j _ Hlt2) in Hx. unfold pb_elems at 1 in Hx. simpl in Hx.
        assert (x ∈ hs_of genv ++ elems_of pc_elems (<[j:=None]> gcs) ++ elems_of pb_elems (<[i:=None]> gbs) \/ x ∈ pc_elems c' ++ map snd cs') as [H|H] by set_solver.
        -- apply Hwf; [done| |done]. rewrite (elems_of_take _ gbs i _ Hlk), (elems_of_take _ gcs j _ Hlk2). set_solver.
        -- by apply Hw'.
      * intros n c2 Hn%g_peek_Some. rewrite g_peek_insert in Hn by done. destruct (decide (j = n)); [by injection Hn as <-|]. apply g_peek_Some in Hn. by eapply Hinv.
  - (* finish *)
    destruct (g_peek i sbs) as [[own s]|] eqn:Ep; [|done]. destruct (wb_peek _ _ _ _ _ _ _ Hbs Ep) as (gb&Egb&Hb).
    destruct (s_alive _ own) eqn:Ea; [|done]. destruct (wb_alive _ _ _ _ _ Hb Ea) as (c&Ec).
    rewrite g_peek_map, Egb. cbn [option_map]. rewrite cow_get_map, Ec. cbn [option_map].
    pose proof (g_peek_lt _ _ _ Egb) as Hlt. pose proof (proj1 (g_peek_Some _ _ _) Egb) as Hlk. destruct Hb as (_&Hsr&_).
    assert (Hi1 : gok (gmm st) (pb_elems gb ++ hs_of genv ++ lkg ++ elems_of pc_elems gcs ++ elems_of pb_elems (<[i:=None]> gbs))).
    { eapply gok_perm; [|exact Hi]. rewrite (elems_of_take _ gbs i _ Hlk). perm. }
    pose proof (gs_finish_ok gb s st _ Hi1 Hsr) as Hf.
    assert (Hbs' : Forall2 (wbrel pr gcs) (<[i:=None]> gbs) (<[i:=None]> sbs)) by by apply Forall2_insert.
    assert (Hwf' : nodes_wf pr (hs_of genv ++ elems_of pc_elems gcs ++ elems_of pb_elems (<[i:=None]> gbs))).
    { eapply nodes_wf_sub; [|exact Hwf]. intros x Hx. rewrite (elems_of_take _ gbs i _ Hlk). set_solver. }
    assert (Hpan : (exists st', gs_finish E (bmap gb) st = (Err Panic, st') /\
        gok (gmm st') (hs_of genv ++ lkg ++ elems_of pc_elems gcs ++ elems_of pb_elems (<[i:=None]> gbs))) ->
      Some (OPanic, SW (map (option_map erase) genv ++ [None]) (map erase lkg) (map (option_map (fun _ => ())) gcs) (<[i:=None]> sbs)) = Some (b, sw') ->
      exists w' genv' lkg' gcs' gbs', ('(r, env', st') ← g_call (gs_finish E (bmap gb)) (map (option_map gaddr) genv) st;
        Ok (r, W env' (map (option_map cmap) gcs) (<[i:=None]> (map (option_map bmap) gbs)) st')) = Ok (b, w') /\ wrel pr w' sw' genv' lkg' gcs' gbs').
    { intros (st'&Em&Hi') [= <- <-]. unfold g_call. rewrite Em. simpl. eexists _, (genv ++ [None]), lkg, gcs, (<[i:=None]> gbs). split; [done|].
      split; try done; simpl.
      - by rewrite map_app, map_insert_opt.
      - by rewrite map_app.
      - rewrite hs_of_app. simpl. by rewrite app_nil_r.
      - rewrite hs_of_app. simpl. by rewrite app_nil_r. }
    destruct (sb_pending s) as [|[k ts|k t] [|t2 l]]; try exact (Hpan Hf Hs).
    clear Hpan. destruct Hf as (g&st'&Em&Heg&Hin&Hi'). injection Hs as <- <-. unfold g_call. rewrite Em. simpl.
    eexists _, (genv ++ [Some g]), lkg, gcs, (<[i:=None]> gbs). split; [done|]. split; try done; simpl.
    + by rewrite map_app, map_insert_opt.
    + rewrite map_app. simpl. by rewrite Heg.
    + rewrite hs_of_app. eapply gok_perm; [|exact Hi']. change (g :: ?l) with ([g] ++ l). change (hs_of [Some g]) with [g]. perm.
    + rewrite hs_of_app. change (hs_of [Some g]) with [g]. intros Hpr x Hx Hxn.
      assert (x = g \/ x ∈ hs_of genv ++ elems_of pc_elems gcs ++ elems_of pb_elems (<[i:=None]> gbs)) as [->|H] by set_solver.
      * apply Hwf; [done| |done]. rewrite (elems_of_take _ gbs i _ Hlk). set_solver.
      * by apply Hwf'.
  - (* drop builder *)
    destruct (g_peek i sbs) as [[own s]|] eqn:Ep; [|done]. destruct (wb_peek _ _ _ _ _ _ _ Hbs Ep) as (gb&Egb&Hb).
    injection Hs as <- <-. rewrite g_peek_map, Egb. cbn [option_map].
    pose proof (proj1 (g_peek_Some _ _ _) Egb) as Hlk.
    destruct (gs_drop_builder_ok gb st (hs_of genv ++ lkg ++ elems_of pc_elems gcs ++ elems_of pb_elems (<[i:=None]> gbs))) as (st'&Em&Hi').
    { eapply gok_perm; [|exact Hi]. rewrite (elems_of_take _ gbs i _ Hlk). perm. }
    rewrite Em. eexists _, genv, lkg, gcs, (<[i:=None]> gbs). split; [done|]. split; try done; simpl.
    + by rewrite map_insert_opt.
    + by apply Forall2_insert.
    + eapply nodes_wf_sub; [|exact Hwf]. intros x Hx. rewrite (elems_of_take _ gbs i _ Hlk). set_solver.
Qed.
Lemma w_run_ok pr p : forall w sw bs sw' genv lkg gcs gbs,
  wrel pr w sw genv lkg gcs gbs -> sw_run pr p sw = Some (bs, sw') ->
  exists w' genv' lkg' gcs' gbs', w_run E al pr p w = Ok (bs, w') /\ wrel pr w' sw' genv' lkg' gcs' gbs'.
Proof using Hmok Hal.
  induction p as [|o p IH]; intros w sw bs sw' genv lkg gcs gbs Hr; simpl.
  - intros [= <- <-]. by exists w, genv, lkg, gcs, gbs.
  - destruct (sw_step pr o sw) as [[b sw1]|] eqn:E1; [|done]. destruct (sw_run pr p sw1) as [[bs1 sw2]|] eqn:E2; [|done]. intros [= <- <-].
    destruct (w_step_ok _ _ _ _ _ _ _ _ _ _ Hr E1) as (w1&genv1&lkg1&gcs1&gbs1&Ew1&Hr1).
    destruct (IH _ _ _ _ _ _ _ _ Hr1 E2) as (w2&genv2&lkg2&gcs2&gbs2&Ew2&Hr2).
    exists w2, genv2, lkg2, gcs2, gbs2. rewrite Ew1. simpl. rewrite Ew2. done.
Qed.
End env.

(** ** What the relation says about the program *)
Lemma filter_map_map {A B} (f : A -> B) l : filter_map id (map (option_map f) l) = map f (filter_map id l).
Proof. induction l as [|[x|] l IH]; simpl; [done|by rewrite IH|done]. Qed.
Lemma concat_map_map {A B C D} (f : A -> list B) (g : B -> D) (h : A -> C) (f' : C -> list D) l :
  (forall a, f' (h a) = map g (f a)) -> concat (map f' (map h l)) = map g (concat (map f l)).
Proof. intros H. induction l as [|x l IH]; simpl; [done|]. by rewrite map_app, H, IH. Qed.
Lemma wrel_roots E pr w sw genv lkg gcs gbs : wrel E pr w sw genv lkg gcs gbs ->
  w_roots w = map gaddr (hs_of genv ++ elems_of pc_elems gcs ++ elems_of pb_elems gbs).
Proof.
  intros [Hw _ _ _ _ _ _ _]. rewrite Hw. unfold w_roots, live_handles, hs_of, elems_of. simpl. rewrite !filter_map_map, !map_app.
  f_equal. f_equal; apply concat_map_map; [apply cmap_elems|apply bmap_elems].
Qed.
Lemma stored_reads_det m g : forall t, stored m g -> reads m (gaddr g) t -> t = erase g.
Proof.
  induction g as [a k tl cs IH|a k s] using green_ind'; intros t [[n Hn] K]%stored_inv Hr; simpl in *; inversion Hr; subst.
  - congruence.
  - match goal with H1 : m !! a = Some _, H2 : m !! a = Some _ |- _ => rewrite H1 in H2; injection H2 as -> -> -> -> end. f_equal.
    unfold kids in K. simpl in K. rewrite map_map in *. simpl in *. clear Hr.
    match goal with H : Forall2 _ _ ts |- _ => revert H end. clear -IH K. revert ts. induction cs as [|c cs IHc]; simpl in *; intros ts HF; inversion HF; subst; [done|].
    apply Forall_cons in IH as [IHx IH]. apply Forall_cons in K as [Kx K]. f_equal; [by apply IHx|by apply IHc].
  - match goal with H1 : m !! a = Some _, H2 : m !! a = Some _ |- _ => rewrite H1 in H2; injection H2 as -> -> -> end. done.
  - congruence.
Qed.
Lemma forall2_reads m gs : Forall (stored m) gs -> Forall2 (reads m) (map gaddr gs) (map erase gs).
Proof. induction gs as [|g gs IH]; simpl; [constructor|]. intros [H1 H2]%Forall_cons. constructor; [by apply stored_reads|by apply IH]. Qed.

(** elements of one cache with the same tree are the same *)
Lemma cache_shared E pr c : mcinv E pr c -> forall g1 g2, g1 ∈ pc_elems c -> g2 ∈ pc_elems c -> erase g1 = erase g2 -> g1 = g2.
Proof.
  intros [H1 H2 H3 H4 H5]. apply (kids_ind (fun g1 => forall g2, g1 ∈ pc_elems c -> g2 ∈ pc_elems c -> erase g1 = erase g2 -> g1 = g2)).
  intros g1 IH g2 Hg1 Hg2 He. unfold pc_elems in Hg1, Hg2. rewrite !elem_of_app, !elem_of_snd in Hg1, Hg2.
  destruct Hg1 as [[h1 Hg1]|[h1 Hg1]], Hg2 as [[h2 Hg2]|[h2 Hg2]].
  - destruct (H1 _ _ Hg1) as (Hn1&_). destruct (H1 _ _ Hg2) as (Hn2&_). eapply H4; [done|done|..]; destruct g1 as [a1 k1 tl1 cs1|], g2 as [a2 k2 tl2 cs2|]; try done.
    + simpl in *. congruence.
    + simpl in He. injection He as _ He. pose proof (fun x => H2 _ _ x Hg1) as K1. pose proof (fun x => H2 _ _ x Hg2) as K2. unfold kids in *. simpl in *.
      clear -IH He K1 K2. revert cs2 He K2. induction cs1 as [|c1 cs1 IHc]; intros [|c2 cs2]; simpl in *; try done. intros [= He1 He2] K2.
      apply Forall_cons in IH as [IH1 IH]. f_equal.
      * apply IH1; [apply K1; left|apply K2; left|done].
      * apply IHc; [done|intros x Hx; apply K1; by right|done|intros x Hx; apply K2; by right].
  - destruct (H1 _ _ Hg1) as (Hn1&_), (H3 _ _ Hg2) as (Hn2&_). by destruct g1, g2.
  - destruct (H3 _ _ Hg1) as (Hn1&_), (H1 _ _ Hg2) as (Hn2&_). by destruct g1, g2.
  - by eapply H5.
Qed.

(** the caches and builders of a program *)
Lemma wrel_cache E pr w sw genv lkg gcs gbs i b c : wrel E pr w sw genv lkg gcs gbs ->
  g_peek i (w_caches w) = Some c \/ g_peek i (w_builders w) = Some b /\ pb_cache b = Owned c ->
  exists gc, c = cmap gc /\ mcinv E pr gc /\ forall g, g ∈ pc_elems gc -> stored (gmm (w_mem w)) g.
Proof.
  intros [Hw He Hl Hcs Hbs Hi Hwf Hinv]. remember (w_mem w) as st. rewrite Hw. cbn [w_caches w_builders]. rewrite !g_peek_map.
  intros [Hc|[Hb Ho]].
  - destruct (g_peek i gcs) as [gc|] eqn:Ep; [|done]. injection Hc as <-. apply g_peek_Some in Ep. exists gc. split; [done|]. split; [by eapply Hinv|].
    intros g Hg. eapply gok_stored; [done|]. rewrite !elem_of_app. do 2 right. left. by eapply elem_of_elems.
  - destruct (g_peek i gbs) as [gb|] eqn:Ep; [|done]. injection Hb as <-. apply g_peek_Some in Ep.
    destruct (Forall2_lookup_l _ _ _ _ _ Hbs Ep) as ([[own s]|]&_&Hr); [|done]. destruct Hr as (Hc&_).
    destruct gb as [[gc|j] ps cs]; simpl in *; [|done]. injection Ho as <-. exists gc. split; [done|]. split; [apply Hc|].
    intros g Hg. eapply gok_stored; [done|]. rewrite !elem_of_app. do 3 right. eapply elem_of_elems; [done|]. unfold pb_elems. simpl. set_solver.
Qed.
Lemma wrel_builder E pr w sw genv lkg gcs gbs i b : wrel E pr w sw genv lkg gcs gbs -> g_peek i (w_builders w) = Some b ->
  exists gb, b = bmap gb /\ g_peek i gbs = Some gb /\ (forall g, g ∈ map snd (pb_children gb) -> stored (gmm (w_mem w)) g) /\
    mpinv E (cow_get gcs gb) (pb_children gb) /\ match pb_cache gb with Owned c => mcinv E pr c | Borrowed _ => True end.
Proof.
  intros [Hw He Hl Hcs Hbs Hi Hwf Hinv]. remember (w_mem w) as st. rewrite Hw. cbn [w_builders]. rewrite g_peek_map. intros Hb.
  destruct (g_peek i gbs) as [gb|] eqn:Ep; [|done]. injection Hb as <-. pose proof Ep as Ep'. apply g_peek_Some in Ep.
  destruct (Forall2_lookup_l _ _ _ _ _ Hbs Ep) as ([[own s]|]&_&Hr); [|done]. destruct Hr as (Hc&_&Hp).
  exists gb. split; [done|]. split; [done|]. split; [|split; [done|by destruct (pb_cache gb); destruct Hc]].
  intros g Hg. eapply gok_stored; [done|]. rewrite !elem_of_app. do 3 right. eapply elem_of_elems; [done|]. unfold pb_elems. set_solver.
Qed.
Lemma wrel_same E pr w sw genv lkg gcs gbs i1 i2 gb1 gb2 : wrel E pr w sw genv lkg gcs gbs ->
  g_peek i1 gbs = Some gb1 -> g_peek i2 gbs = Some gb2 -> match pb_cache gb1 with Owned c => mcinv E pr c | Borrowed _ => True end ->
  same_cache (w_caches w) i1 i2 (bmap gb1) (bmap gb2) ->
  exists gc, cow_get gcs gb1 = Some gc /\ cow_get gcs gb2 = Some gc /\ mcinv E pr gc.
Proof.
  intros [Hw He Hl Hcs Hbs Hi Hwf Hinv] H1 H2 Ho. rewrite Hw. unfold same_cache. cbn [w_caches]. intros [[<- Hn]|(j&c&Hj1&Hj2&Hc)].
  - assert (gb2 = gb1) as -> by congruence. rewrite cow_get_map in Hn. destruct (cow_get gcs gb1) as [gc|] eqn:Eg; [|done].
    exists gc. split; [done|]. split; [done|]. unfold cow_get in Eg. destruct (pb_cache gb1) as [c|j]; [by injection Eg as <-|].
    apply g_peek_Some in Eg. by eapply Hinv.
  - rewrite g_peek_map in Hc. destruct (g_peek j gcs) as [gc|] eqn:Eg; [|done]. exists gc.
    destruct gb1 as [[?|j1] ps1 cs1], gb2 as [[?|j2] ps2 cs2]; simpl in *; try done. injection Hj1 as ->. injection Hj2 as ->.
    unfold cow_get. simpl. split; [done|]. split; [done|]. apply g_peek_Some in Eg. by eapply Hinv.
Qed.
