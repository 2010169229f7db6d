(** * Release builds refuse what debug builds refuse, except texts that get too long *)
From Verif Require Export Release HeapClient.

(** ** Specification *)
(** specification: putting the element in slot [c] as child [i] below the node in slot [s]
    makes a tree with more than [u32::MAX] bytes (cursor.rs:491-523, green/node.rs:125-140) *)
Definition attach_long (s i c : nat) (st : sst) : Prop :=
  exists hc st1 h hc' m t mc tc, s_handles st !! c = Some (Some hc) /\ s_detach hc st = SOk st1 /\
    s_handles st1 !! s = Some (Some h) /\ s_handles st1 !! c = Some (Some hc') /\
    s_trees st1 !! h.1 = Some (m, t) /\ s_trees st1 !! hc'.1 = Some (mc, tc) /\
    (u32_max < blen (ttext (tinsert_child t h.2 i tc)))%N.
(** specification: some tree the call has to make has more than [u32::MAX] bytes
    (green/node.rs:125-140) *)
Definition too_long (o : op) (st : sst) : Prop :=
  match o with
  | OGreenNode k els => exists ts, mapM (fun g => mjoin (s_greens st !! g)) els = Some ts /\ (u32_max < blen (ttext (Node k ts)))%N
  | OGreenSplice a b els g =>
      exists t ts, s_greens st !! g = Some (Some t) /\ mapM (fun g => mjoin (s_greens st !! g)) els = Some ts /\
        (u32_max < blen (ttext (Node (tkind t) (take a (tchildren t) ++ ts ++ drop b (tchildren t)))))%N
  | OGreenReplace i e g =>
      exists t x, s_greens st !! g = Some (Some t) /\ s_greens st !! e = Some (Some x) /\
        (u32_max < blen (ttext (Node (tkind t) (<[i:=x]> (tchildren t)))))%N
  | OSplice s a b ins =>
      exists pre c post st1 x, ins = pre ++ c :: post /\ s_step (OSplice s a b pre) st = SOk (st1, x) /\ attach_long s (a + length pre) c st1
  | _ => False
  end.

(** specification: there is no text anywhere *)
Definition mute (st : sst) : Prop :=
  Forall (fun x : bool * tree => ttext x.2 = []) (s_trees st) /\ Forall (fun o => match o with Some t => ttext t = [] | None => True end) (s_greens st).

(** ** Proofs *)
#[global] Instance mute_dec st : Decision (mute st).
Proof. apply and_dec; apply Forall_dec; intros x; [apply _|destruct x; apply _]. Qed.
Lemma mute_sub t p y : tsub t p = Some y -> ttext t = [] -> ttext y = [].
Proof. intros H E. destruct (treplace_text t p y y H) as (q&Ht&_). rewrite E in Ht. symmetry in Ht. apply app_eq_nil in Ht as [_ Ht]. by apply app_eq_nil in Ht as [Ht _]. Qed.
Lemma mute_replace t p y z : tsub t p = Some y -> ttext t = [] -> ttext z = [] -> ttext (treplace t p z) = [].
Proof.
  intros H E Ez. destruct (treplace_text t p y z H) as (q&Ht&->). rewrite E in Ht. symmetry in Ht. apply app_eq_nil in Ht as [-> Ht]. apply app_eq_nil in Ht as [_ ->].
  by rewrite Ez.
Qed.
Lemma mute_kids k cs : ttext (Node k cs) = [] <-> Forall (fun c => ttext c = []) cs.
Proof.
  rewrite ttext_node. unfold ctext. split.
  - induction cs as [|c cs IH]; simpl; [constructor|]. intros [H1 H2]%app_eq_nil. constructor; [done|by apply IH].
  - induction 1 as [|c cs Hc _ IH]; [done|]. simpl. by rewrite Hc, IH.
Qed.
Lemma mute_delete t p i : ttext t = [] -> ttext (tdelete_child t p i) = [].
Proof.
  intros H. unfold tdelete_child. destruct (tsub t p) as [[k cs|]|] eqn:E; [|done|done]. eapply mute_replace; [done|done|].
  apply mute_kids. pose proof (mute_sub _ _ _ E H) as Hk. apply mute_kids in Hk. apply Forall_app. split; [by apply Forall_take|by apply Forall_drop].
Qed.
Lemma mute_insert t p i x : ttext t = [] -> ttext x = [] -> ttext (tinsert_child t p i x) = [].
Proof.
  intros H Hx. unfold tinsert_child. destruct (tsub t p) as [[k cs|]|] eqn:E; [|done|done]. eapply mute_replace; [done|done|].
  apply mute_kids. pose proof (mute_sub _ _ _ E H) as Hk. apply mute_kids in Hk. apply Forall_app. split; [by apply Forall_take|]. apply Forall_cons. split; [done|by apply Forall_drop].
Qed.
Lemma mute_tree st n m t : mute st -> s_trees st !! n = Some (m, t) -> ttext t = [].
Proof. intros [H _] E. by apply (Forall_lookup_1 _ _ _ _ H E). Qed.
Lemma mute_detach h st st1 : mute st -> s_detach h st = SOk st1 -> mute st1.
Proof.
  intros Hm. unfold s_detach. destruct (s_trees st !! h.1) as [[[] t]|] eqn:Et; [|done|done]. simpl. pose proof (mute_tree _ _ _ _ Hm Et) as Ht. destruct Hm as [H1 H2].
  destruct (last h.2) as [i|]; [|intros [= <-]; done]. destruct (tsub t h.2) as [x|] eqn:Ex; [|done]. intros [= <-]. split; [|done]. simpl.
  apply Forall_app. split; [apply Forall_insert; [done|]; by apply mute_delete|]. apply Forall_singleton. by eapply mute_sub.
Qed.
Lemma mute_attach s i c st st1 : mute st -> s_attach s i c st = SOk st1 -> mute st1.
Proof.
  intros Hm. unfold s_attach. destruct (s_handles st !! s) as [[h|]|]; [|done|done]. simpl. destruct (s_elem st h) as [[m x]| | |]; [|done|done|done]. simpl.
  destruct m; [|done]. simpl. destruct (s_handles st !! c) as [[hc|]|]; [|done|done]. simpl.
  destruct (s_detach hc st) as [st0| | |] eqn:Ed; [|done|done|done]. simpl. pose proof (mute_detach _ _ _ Hm Ed) as Hm0.
  destruct (s_handles st0 !! s) as [[h0|]|]; [|done|done]. simpl. destruct (s_handles st0 !! c) as [[hc0|]|]; [|done|done]. simpl.
  unfold s_attach_root. destruct (s_trees st0 !! h0.1) as [[m t]|] eqn:Et; [|done]. destruct (s_trees st0 !! hc0.1) as [[mc tc]|] eqn:Ec; [|done].
  destruct (tsub t h0.2) as [[k cs|]|]; [|done|done]. destruct (h0.1 =? hc0.1); [done|]. cbv zeta. destruct (_ && _); [|done]. simpl. intros [= <-].
  pose proof (mute_tree _ _ _ _ Hm0 Et). pose proof (mute_tree _ _ _ _ Hm0 Ec). destruct Hm0 as [H1 H2]. split; [|done]. simpl.
  apply Forall_insert; [done|]. by apply mute_insert.
Qed.
Lemma mute_textless st hs zs lk Zx h : sim st hs zs lk Zx h -> mute st -> textless (po (P h)).
Proof.
  intros Hsim Hm. pose proof (sm_sim _ _ _ _ _ _ Hsim) as HS. pose proof HS as [Hi HZ]. pose proof Hi as (K&R&Hs&Ho&Hl&Hc).
  apply textless_owned. intros g Hg. rewrite (on_perm _ _ _ _ Ho) in Hg. apply elem_of_app in Hg as [Hg|Hg].
  - apply elem_of_list_fmap in Hg as (r&->&Hr). apply (on_R _ _ _ _ Ho) in Hr as (cr&Hr&Hp).
    destruct (below_handle _ _ _ Hi (S (gsize (o_grn cr))) r cr r [] ltac:(lia) Hr (loc_root _ _ _ Hr Hp)) as (u&p&Hu&Hlu).
    apply elem_of_list_fmap in Hu as (z&->&Hz). destruct (simH_alive _ _ _ _ _ HS Hz) as (r'&m&cz&Hlz&HT&_).
    destruct (loc_fun _ _ _ _ Hlu _ _ Hlz) as [<- _]. by apply (mute_tree _ _ _ _ Hm HT).
  - destruct Hm as [_ Hm]. rewrite (sm_greens _ _ _ _ _ _ Hsim) in Hm. unfold gtext.
    apply elem_slot in Hg. rewrite Forall_forall in Hm. apply (Hm (Some (erase g))). change (Some (erase g)) with (erase <$> Some g). by apply elem_of_list_fmap_1.
Qed.
(** the two builds do the same here, or [L]; proof device *)
Definition exact {A} (L : Prop) (d r : hm A) (h : heap) : Prop := r h = d h \/ L.
Lemma exact_refl {A} L (m : hm A) h : exact L m m h.
Proof. by left. Qed.
Lemma exact_wp {A B} L (d r : hm A) (f g : A -> hm B) h :
  agree d r -> wp d (fun a h' => exact L (f a) (g a) h') h -> exact L (d ≫= f) (r ≫= g) h.
Proof.
  intros Ha Hw. apply wp_ok in Hw as (a&h'&E&H). unfold exact, mbind, hm_bind. destruct (Ha h) as [->|Hp]; [by rewrite E|].
  by rewrite E in Hp.
Qed.
Lemma exact_first {A B} L (d r : hm A) (f g : A -> hm B) h :
  exact L d r h -> (exists e, (d h).1 = Err e) -> exact L (d ≫= f) (r ≫= g) h.
Proof.
  intros [E|HL] [e Hp]; [left|by right]. unfold mbind, hm_bind. rewrite E. by destruct (d h) as [[a|e'] h'].
Qed.
Lemma exact_mono {A} (L L' : Prop) (d r : hm A) h : (L -> L') -> exact L d r h -> exact L' d r h.
Proof. intros H [?|?]; [by left|right; auto]. Qed.

Ltac xw := apply exact_wp; [solve [ag]|].

#[local] Hint Resolve a_detach a_attach_data a_attach_child a_attach_all a_children_drop a_kids_next a_by_kind_new a_by_kind_next a_by_kind_loop a_splice a_offset a_at_range a_cfu a_step : agree.
Section refused.
Context (env : henv) (Henv : henv_ok env).

(** an index beyond the end is refused by [Vec::splice] *)
Lemma attach_index q i x h H G cq cx :
  inv h H G -> pc (P h) !! q = Some cq -> pc (P h) !! x = Some cx -> o_mut cq = true -> o_mut cx = true ->
  o_par cx = None -> gis_node (o_grn cq) = true -> length (kids (o_grn cq)) < i ->
  exact False (@h_attach_data Checked env q i x) (@h_attach_data Wrapping env q i x) h.
Proof.
  intros Hi Hq Hx Hmq Hm Hp Hnode Hlt. pose proof Hi as (K&R&Hs&Ho&Hl&Hc). set (c := pc (P h)) in *.
  pose proof (sh_nodup _ _ Hs q) as Hnd.
  destruct (lk_mut _ _ _ _ _ Hl _ _ Hq Hmq) as [Hfq Hcq].
  assert (HKc : forall y, y ∈ K q -> exists cy, c !! y = Some cy /\ o_par cy = Some q) by (intros y; apply (sh_K _ _ Hs)).
  assert (HxK : forall z, x ∉ K z). { intros z (cx'&?&?)%(sh_K _ _ Hs). congruence. }
  assert (HKsize : forall y cy, y ∈ K q -> c !! y = Some cy -> gsize (o_grn cy) < gsize (o_grn cq)).
  { intros y cy Hy Hcy. destruct (HKc y Hy) as (cy'&Hcy'&Hpy). assert (cy' = cy) as -> by congruence. by eapply (sh_gsize _ _ Hs). }
  assert (Hpos : forall z cz n, c !! z = Some cz -> pr (P h) !! z = Some n -> (0 <? n) = true).
  { intros z cz n Hz Hn. rewrite (ct_rc _ _ _ _ _ Hc z ltac:(eauto)) in Hn. injection Hn as <-. apply Nat.ltb_lt.
    destruct (cnt z H + length (K z)) eqn:E; [|lia]. by pose proof (ct_live _ _ _ _ _ Hc z ltac:(eauto) E). }
  unfold h_attach_data, h_attach_with.
  xw. eapply wp_get; [exact Hq|]. intros nq Enq Hrcq _ _ _.
  xw. eapply wp_get; [exact Hx|]. intros nx Enx Hrcx _ _ _.
  xw. apply wp_assert.
  { rewrite <- Enq in Hmq. rewrite <- Enx in Hm, Hp. simpl in *. rewrite Hmq, Hm. by case_bool_decide. }
  xw. apply wp_assert. { by rewrite (Hpos _ _ _ Hq Hrcq), (Hpos _ _ _ Hx Hrcx). }
  clear nq Enq Hrcq nx Enx Hrcx.
  xw. eapply wp_set_idx; [exact Hx|]. intros h1 E1. fold c in E1.
  xw. eapply wp_set_par; [rewrite E1; apply lookup_insert|]. intros h2 E2. rewrite E1 in E2. psimp E2. rewrite insert_insert in E2.
  set (cx1 := c_par (Some q) (c_idx i cx)) in *. set (c1 := <[x:=cx1]> c) in *.
  assert (Hq1 : exists cq1, c1 !! q = Some cq1 /\ o_grn cq1 = o_grn cq).
  { unfold c1. destruct (decide (q = x)) as [->|Hne]; [rewrite lookup_insert|rewrite lookup_insert_ne by done; eauto].
    exists cx1. split; [done|]. assert (cq = cx) as -> by congruence. done. }
  destruct Hq1 as (cq1&Hq1&Egq1).
  xw. eapply (wp_inc q cq1); [by rewrite E2|]. intros h3 nrc Hnrc E3. rewrite E2 in Hnrc, E3. psimp E3. psimp Hnrc.
  xw. eapply (wp_get q _ _ cq1); [by rewrite E3|]. intros nq Enq _ Hfst _ _.
  assert (n_first nq = head (K q)) as -> by (rewrite E3 in Hfst; psimp Hfst; congruence). clear nq Enq Hfst.
  set (f := adjc i (DAdd 1)) in *.
  xw.
  eapply (wp_mono _ (fun _ h' => exists c2, P h' = set_pc (P h3) c2 /\ forall y, c2 !! y = if decide (y ∈ K q) then f <$> c1 !! y else c1 !! y)).
  { destruct (K q) as [|y0 l0] eqn:EK.
    - apply wp_skip. exists c1. split; [by rewrite E3|]. intros y. by rewrite decide_False by apply not_elem_of_nil.
    - eapply (wp_adjust y0 i (DAdd 1) [] l0); rewrite ?E3; psimpg; try done.
      + intros y Hy. destruct (HKc y Hy) as (cy&Hcy&_). exists cy. split; [|done]. unfold c1. rewrite lookup_insert_ne; [done|].
        intros <-. apply (HxK q). by rewrite EK.
      + intros h' c' E' Hc'. exists c'. split; [by rewrite E'|done]. }
  intros [] h4 (c2&E4&Hc2). rewrite E3 in E4. psimp E4.
  assert (Hx2 : c2 !! x = Some cx1).
  { rewrite Hc2, decide_False by done. unfold c1. by rewrite lookup_insert. }
  assert (HyK2 : forall y cy, y ∈ K q -> c !! y = Some cy -> c2 !! y = Some (f cy)).
  { intros y cy Hy Hcy. rewrite Hc2, decide_True by done. unfold c1. rewrite lookup_insert_ne, Hcy; [done|]. intros <-. by apply (HxK q). }
  assert (Hyn2 : forall y, y <> x -> y ∉ K q -> c2 !! y = c !! y).
  { intros y Hne Hy. rewrite Hc2, decide_False by done. unfold c1. by rewrite lookup_insert_ne. }
  assert (Hf : forall cy, o_idx (f cy) = if i <=? o_idx cy then S (o_idx cy) else o_idx cy).
  { intros cy. unfold f, adjc, dl. destruct (Nat.leb_spec i (o_idx cy)); simpl; [lia|done]. }
  assert (HqK : q ∉ K q). { intros Hin. pose proof (HKsize _ _ Hin Hq). lia. }
  assert (Hq2 : exists cq2, c2 !! q = Some cq2 /\ o_grn cq2 = o_grn cq).
  { destruct (decide (q = x)) as [->|Hne]; [|rewrite Hyn2 by done; eauto]. exists cx1. split; [done|]. assert (cq = cx) as -> by congruence. done. }
  destruct Hq2 as (cq2&Hq2&Egq2).
  assert (Hni : forall a, a ∈ K q -> ix c2 a <> i).
  { intros a Ha. destruct (HKc a Ha) as (ca&Hca&_). unfold ix. rewrite (HyK2 a ca) by done. rewrite (Hf ca).
    destruct (Nat.leb_spec i (o_idx ca)); lia. }
  assert (Hal2 : forall y, y ∈ x :: K q -> is_Some (c2 !! y)).
  { intros y [->|Hy]%elem_of_cons; [eauto|]. destruct (HKc y Hy) as (cy&Hcy&_). rewrite (HyK2 _ _ Hy Hcy). eauto. }
  xw. eapply (wp_link q i (K q)); rewrite ?E4; psimpg.
  { eauto. } { intros y Hy. apply Hal2. by right. } { done. } { done. } { done. }
  intros sr Hans. destruct (link_ans_added _ _ x _ _ _ Hans) as [[z ->]|(l'&Hadd)].
  { exfalso. destruct (link_ans_in _ _ _ _ _ Hans) as [Hz1 Hz2]. by apply (Hni z). }
  xw.
  assert (wp (match sr with AlreadyInSll _ => hpanic | _ => h_add_to_sll sr x end)
    (fun _ h5 => pc (P h5) = c2 /\ po (P h5) = po (P h)) h4) as Hsll.
  { assert (wp (h_add_to_sll sr x) (fun _ h5 => pc (P h5) = c2 /\ po (P h5) = po (P h)) h4) as Hw.
    { eapply (wp_add_to_sll _ q x i (K q)); [exact Hadd|..]; rewrite ?E4; psimpg; try done.
      - constructor; [apply HxK|done].
      - intros h5 n' q' E5 ? ?. by rewrite E5. }
    destruct Hadd; exact Hw. }
  eapply wp_mono; [exact Hsll|]. clear Hsll. intros [] h5 (Hpc5&Hpo5).
  assert (Hlq' : live (po (P h)) (o_grn cq)) by (by eapply owned_live).
  xw. eapply (wp_green_of q cq2); [by rewrite Hpc5|by rewrite Hpo5, Egq2|]. rewrite Egq2.
  xw. apply wp_assert; [done|].
  xw. eapply (wp_get x _ _ cx1); [by rewrite Hpc5|]. intros n En _ _ _ _.
  left. unfold mbind, hm_bind, h_green_build, green_insert_child, green_splice_children. fold (kids (o_grn cq)).
  rewrite !vec_splice_panic by (simpl; lia). simpl.
  by destruct (remove_addr _ _).
Qed.

(** where the specification says that the call panics or does not return, both builds do
    the same, or [L] or [M]; proof device *)
Definition xm {A B} (L M : Prop) (s : sres A) (d r : hm B) (h : heap) : Prop := (s = SPanic -> exact L d r h) /\ (s = SStuck -> exact M d r h).
Lemma xm_ok {A B} L M (a : A) (d r : hm B) h : xm L M (SOk a) d r h.
Proof. by split. Qed.
Lemma xm_no {A B} L M (d r : hm B) h : xm L M (@SIll A) d r h.
Proof. by split. Qed.
Lemma xm_bind {A B C D} L M (s : sres A) (f : A -> sres C) (d r : hm B) (g g' : B -> hm D) Q h :
  meets s d Q h -> agree d r -> xm L M s d r h -> (forall a b h', s = SOk a -> Q a b h' -> xm L M (f a) (g b) (g' b) h') -> xm L M (s ≫= f) (d ≫= g) (r ≫= g') h.
Proof.
  intros Hm Ha Hx Hf. destruct s as [a| | |]; simpl in *; [| | |apply xm_no].
  - split; intros E; (apply exact_wp; [done|]); (eapply wp_mono; [exact Hm|]); intros b h' HQ; by eapply Hf.
  - split; intros E; [|done]. apply exact_first; [by apply Hx|eauto].
  - split; intros E; [done|]. apply exact_first; [by apply Hx|]. destruct Hm; eauto.
Qed.
Lemma exact_false {D} L (g g' : unit -> hm D) h : exact L (hassert false ≫= g) (hassert false ≫= g') h.
Proof. by left. Qed.
Lemma xm_false {A D} L M (s : sres A) (g g' : unit -> hm D) h : xm L M s (hassert false ≫= g) (hassert false ≫= g') h.
Proof. split; intros _; apply exact_false. Qed.
Lemma xm_wp {B C D} L M (f : sres C) (d r : hm B) (g g' : B -> hm D) (Q : B -> heap -> Prop) h :
  wp d Q h -> agree d r -> (forall b h', Q b h' -> xm L M f (g b) (g' b) h') -> xm L M f (d ≫= g) (r ≫= g') h.
Proof. intros Hm Ha Hf. split; intros E; (apply exact_wp; [done|]); (eapply wp_mono; [exact Hm|]); intros b h' HQ; by apply Hf. Qed.
Lemma xm_slot {A B C} L M (o : option (option A)) (f : A -> sres C) (d r : hm B) h :
  (forall a, o = Some (Some a) -> xm L M (f a) d r h) -> xm L M (of_slot o ≫= f) d r h.
Proof. intros H. destruct o as [[a|]|]; simpl; [by apply H|apply xm_no|apply xm_no]. Qed.
Lemma xm_ill {B C} L M (b : bool) (f : unit -> sres C) (d r : hm B) h : (b = true -> xm L M (f ()) d r h) -> xm L M (ill_unless b ≫= f) d r h.
Proof. intros H. destruct b; simpl; [by apply H|apply xm_no]. Qed.
Lemma xm_elem {B C} L M st hh (f : bool * tree -> sres C) (d r : hm B) h :
  (forall mu t x, s_trees st !! hh.1 = Some (mu, t) -> tsub t hh.2 = Some x -> xm L M (f (mu, x)) d r h) -> xm L M (s_elem st hh ≫= f) d r h.
Proof.
  intros H. unfold s_elem. destruct (s_trees st !! hh.1) as [[mu t]|]; simpl; [|apply xm_no]. destruct (tsub t hh.2) eqn:E; simpl; [by eapply H|apply xm_no].
Qed.
Lemma xm_mono {A B} (L L' M M' : Prop) (s : sres A) (d r : hm B) h : (L -> L') -> (M -> M') -> xm L M s d r h -> xm L' M' s d r h.
Proof. intros H1 H2 [Hx1 Hx2]. split; intros E; (eapply exact_mono; [|auto]); done. Qed.
(** the specification panics *)
Lemma xm_panic {A B} L M (s : sres A) (d r : hm B) h : s <> SStuck -> (s = SPanic -> exact L d r h) -> xm L M s d r h.
Proof. by split. Qed.

Lemma x_detach_imm {bld bld' : build} h T Z G z t :
  simH h T Z G -> z ∈ Z -> T !! z.2.1 = Some (false, t) -> @h_detach bld env z.1 h = (Err Panic, h).
Proof.
  intros HS Hz HT. destruct (simH_alive _ _ _ _ _ HS Hz) as (r&m'&cz&Hl&HT'&Hcz&Hm&_). rewrite HT in HT'. injection HT' as <- ->.
  rewrite P_pc in Hcz. destruct (hn h !! z.1) as [n|] eqn:Hn; [|done]. injection Hcz as <-.
  unfold h_detach, mbind, hm_bind, h_get. rewrite Hn. simpl in Hm. by rewrite Hm.
Qed.
Lemma s_detach_panic hh st : s_detach hh st = SPanic -> exists t, s_trees st !! hh.1 = Some (false, t).
Proof.
  unfold s_detach. destruct (s_trees st !! hh.1) as [[[] t]|]; [|eauto|done]. simpl. destruct (last hh.2); [|done]. by destruct (tsub t hh.2).
Qed.
Lemma s_detach_stuck hh st : s_detach hh st <> SStuck.
Proof.
  unfold s_detach. destruct (s_trees st !! hh.1) as [[[] t]|]; [|done|done]. simpl. destruct (last hh.2); [|done]. by destruct (tsub t hh.2).
Qed.
Lemma x_detach L M st T Z G h z : simH h T Z G -> T = s_trees st -> z ∈ Z -> xm L M (s_detach z.2 st) (@h_detach Checked env z.1) (@h_detach Wrapping env z.1) h.
Proof.
  intros HS -> Hz. apply xm_panic; [apply s_detach_stuck|]. intros (t&HT)%s_detach_panic. left. rewrite !(x_detach_imm (bld':=Checked) _ _ _ _ _ _ HS Hz HT). done.
Qed.
Lemma x_attach st hs zs lk h s i c (q : hpos) x : sim st hs zs lk [] h ->
  zs !! s = Some (Some q) -> c <> s -> h_handles hs !! c = Some (Some x) \/ h_handles hs !! c = Some None ->
  xm (attach_long s i c st) (~ mute st) (s_attach s i c st) (@h_attach_child Checked env q.1 i x) (@h_attach_child Wrapping env q.1 i x) h.
Proof using Henv.
  intros Hsim Hq Hcs Hx. unfold s_attach, h_attach_child. rewrite (sim_pos_slot _ _ _ _ _ _ _ _ Hsim Hq). cbn [of_slot mbind sres_bind].
  apply xm_elem. intros m t e HT Ht. simpl.
  pose proof (sm_sim _ _ _ _ _ _ Hsim) as HS. assert (Hqin : q ∈ [] ++ somes zs ++ lk) by (apply elem_of_app; right; apply elem_of_app; left; by eapply slot_elem).
  destruct (simH_alive _ _ _ _ _ HS Hqin) as (r&m'&cq&Hl&HT'&Hcq&Hm&_). rewrite HT in HT'. injection HT' as <- ->.
  eapply (xm_wp _ _ _ _ _ _ _ (fun n h' => n_mut n = m /\ h' = h)); [|ag|]. { eapply wp_get; [exact Hcq|]. intros n En _ _ _ _. split; [|done]. rewrite <- Hm, <- En. done. }
  intros n h' (->&->). destruct m; cbn [panic_unless mbind sres_bind]; [|apply xm_false].
  eapply (xm_wp _ _ _ _ _ _ _ (fun _ h' => h' = h)); [by apply wp_assert|ag|]. intros [] h' ->.
  apply xm_slot. intros hc Hc. destruct (sim_slot _ _ _ _ _ _ _ _ Hsim Hc) as (z&Hz&->&Hzc&Hzin).
  assert (x = z.1) as -> by (destruct Hx as [Hx|Hx]; congruence). clear Hx.
  eapply xm_bind; [by apply (sim_do_detach env Henv _ _ _ _ _ _ _ Hsim Hzin)|ag|by eapply x_detach|]. cbv beta. intros st1 [] h1 Ed Hsim1.
  pose proof (detach_moves_mut _ _ _ true q.2 Ed ltac:(eauto)) as (tq1&HTq1).
  assert (exists tz, s_trees st !! z.2.1 = Some (true, tz)) as Hzm.
  { unfold s_detach in Ed. destruct (s_trees st !! z.2.1) as [[[] tz]|]; [eauto|done|done]. }
  pose proof (detach_moves_mut _ _ _ true z.2 Ed Hzm) as (tz1&HTz1). pose proof (detach_moves_self z.2 st) as Hself.
  set (f := detach_moves z.2 st) in *.
  pose proof (slot_moved f _ _ _ Hq) as Hq1. pose proof (slot_moved f _ _ _ Hz) as Hz1. set (zs1 := map (fmap (moved f)) zs) in *.
  pose proof (sim_pos_slot _ _ _ _ _ _ _ _ Hsim1 Hq1) as Hsq1. pose proof (sim_pos_slot _ _ _ _ _ _ _ _ Hsim1 Hz1) as Hsz1.
  rewrite Hsq1, Hsz1. cbn [of_slot moved fst snd mbind sres_bind].
  unfold s_attach_root. rewrite HTq1, HTz1. destruct (tsub tq1 (f q.2).2) as [[k cs|]|] eqn:Hsub; [|apply xm_no|apply xm_no].
  pose proof (sm_sim _ _ _ _ _ _ Hsim1) as HS1.
  assert (Hq1in : moved f q ∈ map_pos f [] ++ somes zs1 ++ lk) by (apply elem_of_app; right; apply elem_of_app; left; by eapply slot_elem).
  assert (Hz1in : moved f z ∈ map_pos f [] ++ somes zs1 ++ lk) by (apply elem_of_app; right; apply elem_of_app; left; by eapply slot_elem).
  destruct (simH_alive _ _ _ _ _ HS1 Hq1in) as (rq&mq&cq1&Hlq&HTq&Hcq1&Hmq&Hsq).
  destruct (simH_alive _ _ _ _ _ HS1 Hz1in) as (rz&mz&cz1&Hlz&HTz&Hcz1&Hmz&_). simpl in HTq, HTz, Hlz, Hlq, Hsq. rewrite Hself in Hlz.
  pose proof Hlz as Hlz'. destruct (loc_fun_root _ _ _ Hlz) as [-> Hroot]. rewrite HTq1 in HTq. rewrite HTz1 in HTz. injection HTq as <- ->. injection HTz as <- ->.
  rewrite Hsub in Hsq. injection Hsq as Eg.
  assert (Hnq : gis_node (o_grn cq1) = true) by (rewrite <- erase_is_node; by rewrite <- Eg).
  assert (Elen : length (kids (o_grn cq1)) = length cs).
  { pose proof (f_equal (fun u => length (tchildren u)) Eg) as E'. simpl in E'. rewrite length_erase_children in E'. unfold kids. by rewrite map_length. }
  destruct (Nat.eqb_spec (f q.2).1 (f z.2).1) as [E|E].
  { (* below itself *)
    split; [done|]. intros _. destruct (decide (mute st)) as [Hm'|Hm']; [|by right]. pose proof (mute_detach _ _ _ Hm' Ed) as Hmu1.
    pose proof (mute_textless _ _ _ _ _ _ Hsim1 Hmu1) as Htl.
    assert (rq = z.1) as ->. { destruct HS1 as [_ [_ H2]]. by apply (H2 _ _ _ _ Hq1in Hz1in); [simpl|simpl; rewrite Hself|simpl]. }
    assert (Hw : wpx (h_attach_data env q.1 i z.1) (fun _ _ => False) (fun e => e = Diverge \/ e = Panic /\ ~ (i <= length cs)) h1).
    { unfold h_attach_data. eapply (wpx_attach_cyclic env (i <= length cs) (h_respine env) q.1 i z.1 h1 _ _ cq1 cz1 (f q.2).2); try done; [by eexists| |by apply HS1|by apply Hroot].
      intros Hle. by rewrite Elen. }
    apply exact_first.
    - destruct (Nat.leb_spec i (length cs)) as [Hi|Hi].
      + unfold wpx in Hw. left. destruct (a_attach_data env q.1 i z.1 h1) as [Ha|Ha]; [exact Ha|]. exfalso.
        destruct (h_attach_data env q.1 i z.1 h1) as [[]?]; [done|]. simpl in Ha. injection Ha as ->. destruct Hw as [?|[_ []]]; done.
      + apply (exact_mono False); [done|]. eapply (attach_index _ i _ h1 _ _ cq1 cz1 (proj1 HS1)); try done; [by apply Hroot|]. by rewrite Elen.
    - unfold wpx in Hw. destruct (h_attach_data env q.1 i z.1 h1) as [[]?]; [done|]. simpl. eauto. }
  pose proof (sim_attach_root env Henv h1 _ _ _ (moved f q) (moved f z) i _ _ k cs HS1 Hq1in Hz1in HTq1 HTz1 Hself E Hsub) as Ha. cbn [moved fst snd] in Ha. cbv zeta in Ha.
  destruct (Nat.leb_spec i (length cs)) as [Hi|Hi]; simpl in Ha |- *.
  - destruct (N.leb_spec (blen (ttext (tinsert_child (erase (gr (pc (P h1)) rq)) (f q.2).2 i (erase (gr (pc (P h1)) z.1))))) u32_max) as [Hb|Hb]; simpl in Ha |- *; [apply xm_ok|].
    split; [|done]. intros _. right. eexists z.2, st1, (f q.2), (f z.2), true, _, true, _. by split_and!.
  - split; [|done]. intros _. apply exact_first; [|eauto]. apply (exact_mono False); [done|].
    eapply (attach_index _ i _ h1 _ _ cq1 cz1 (proj1 HS1)); try done; [by apply Hroot|]. by rewrite Elen.
Qed.
Lemma x_attach_all st hs zs lk h s i ins xs (q : hpos) : sim st hs zs lk [] h ->
  zs !! s = Some (Some q) -> Forall2 (fun c x => h_handles hs !! c = Some (Some x) \/ h_handles hs !! c = Some None) ins xs ->
  xm (exists pre c post st1, ins = pre ++ c :: post /\ s_attach_all s i pre st = SOk st1 /\ attach_long s (i + length pre) c st1)
    (~ mute st) (s_attach_all s i ins st) (@h_attach_all Checked env q.1 i xs) (@h_attach_all Wrapping env q.1 i xs) h.
Proof using Henv.
  intros Hsim Hq HF. revert st hs zs h i q Hsim Hq HF. revert xs. induction ins as [|c ins IH]; intros xs st hs zs h i q Hsim Hq HF; [apply xm_ok|].
  inversion HF as [|? x ? xs' Hx HF']; subst. cbn [s_attach_all h_attach_all]. apply xm_ill. intros Hcs.
  pose proof Hcs as Hcs'. apply negb_true_iff, Nat.eqb_neq in Hcs'. eapply xm_bind; [by eapply (sim_do_attach env Henv)|ag|..].
  - eapply xm_mono; [|exact (fun x => x)|by eapply x_attach]. intros HL. exists [], c, ins, st. rewrite Nat.add_0_r. done.
  - cbv beta. intros st1 [] h1 Est (zs1&q1&Hsim1&Hq1&Eq). rewrite <- Eq. eapply xm_mono; [| |eapply IH; [exact Hsim1|done|]].
    + intros (pre&c'&post&st2&->&E&HL). exists (c :: pre), c', post, st2. split; [done|]. cbn [s_attach_all]. rewrite Hcs. simpl. rewrite Est. simpl.
      split; [exact E|]. by rewrite Nat.add_succ_r.
    + intros Hm1 Hm2. by eapply Hm1, mute_attach.
    + eapply Forall2_impl; [exact HF'|]. intros c' x' Hc'. simpl. destruct (decide (c' = c)) as [->|]; [|by rewrite !list_lookup_insert_ne].
      right. apply list_lookup_insert. destruct Hc' as [Hc'|Hc']; by apply lookup_lt_Some in Hc'.
Qed.
Lemma s_detach_mut n p st t : s_trees st !! n = Some (true, t) -> s_detach (n, p) st <> SPanic.
Proof. intros HT (t'&HT')%s_detach_panic. simpl in HT'. congruence. Qed.
Lemma x_splice st hs zs lk h s a b ins xs (q : hpos) : sim st hs zs lk [] h ->
  zs !! s = Some (Some q) -> Forall2 (fun c x => h_handles hs !! c = Some (Some x)) ins xs ->
  xm (too_long (OSplice s a b ins) st) (~ mute st) (s_splice s a b ins st) (@h_splice_children Checked env q.1 a b xs) (@h_splice_children Wrapping env q.1 a b xs) h.
Proof using Henv.
  intros Hsim Hq HF. unfold h_splice_children, too_long. cbn [s_step]. unfold s_splice. rewrite (sim_pos_slot _ _ _ _ _ _ _ _ Hsim Hq). cbn [of_slot mbind sres_bind].
  apply xm_elem. intros m t e HT Ht. unfold s_elem. rewrite HT, Ht. cbn [mbind sres_bind].
  apply xm_ill. intros [Hnode Hins]%andb_true_iff. destruct e as [k cs|]; [clear Hnode|done].
  pose proof (sm_sim _ _ _ _ _ _ Hsim) as HS. assert (Hqin : q ∈ [] ++ somes zs ++ lk) by (apply elem_of_app; right; apply elem_of_app; left; by eapply slot_elem).
  destruct (simH_alive _ _ _ _ _ HS Hqin) as (r&m'&cq&Hl&HT'&Hcq&Hm&_). rewrite HT in HT'. injection HT' as <- ->.
  eapply (xm_wp _ _ _ _ _ _ _ (fun n h' => n_mut n = m /\ h' = h)); [|ag|]. { eapply wp_get; [exact Hcq|]. intros n En _ _ _ _. split; [|done]. rewrite <- Hm, <- En. done. }
  intros n h' (->&->). destruct m; cbn [panic_unless mbind sres_bind]; [|apply xm_false].
  eapply (xm_wp _ _ _ _ _ _ _ (fun _ h' => h' = h)); [by apply wp_assert|ag|]. intros [] h' ->.
  eapply xm_wp; [by eapply sim_green_len|ag|]. intros g h' (Hlen&->).
  eapply xm_wp; [by apply sim_children_new|ag|]. intros it h1 (->&HS1). simpl in HS1.
  pose proof (sim_detach_loop env Henv true (fun i => (a <=? i) && (i <? b)) (s_trees st) (somes zs ++ lk) (somes (h_greens hs)) q.2 (erase (gr (pc (P h)) r)) k cs
    (S (length (gchildren g))) 0 (HC q.1 None false) (sel_from (kid_sel true) cs 0) [(q.1, q.2)] h1) as Hloop.
  specialize (Hloop ltac:(by destruct q) ltac:(apply it_new) HT Ht ltac:(by intros ? ? [=])).
  specialize (Hloop ltac:(rewrite Hlen; apply Nat.lt_succ_r, sel_from_length)).
  assert (Epick : pick (fun i => (a <=? i) && (i <? b)) 0 (sel_from (kid_sel true) cs 0) = if (a <? b) && (a <? length cs) then Some a else None).
  { unfold sel_from. simpl. rewrite sel_go_any. apply pick_seq. lia. }
  rewrite Epick in Hloop. clear Epick. cbn [tchildren].
  assert (HF' : Forall2 (fun c x => h_handles hs !! c = Some (Some x) \/ h_handles hs !! c = Some None) ins xs) by (eapply Forall2_impl; [exact HF|]; auto).
  set (L := exists pre c post st1 x, _).
  assert (HL : forall st0, (if (a <? b) && (a <? length cs) then s_detach (@pair nat pos q.2.1 (q.2.2 ++ [a])) st else SOk st) = SOk st0 ->
    (exists pre c post st1, ins = pre ++ c :: post /\ s_attach_all s a pre st0 = SOk st1 /\ attach_long s (a + length pre) c st1) -> L).
  { intros st0 E0 (pre&c&post&st1&->&E1&H). exists pre, c, post, st1, None. split; [done|]. split; [|done].
    rewrite forallb_app in Hins. apply andb_true_iff in Hins as [Hins _]. rewrite Hins.
    lazymatch type of E0 with ?X = _ => change ((X ≫= (fun st => s_attach_all s a pre st)) ≫= (fun st => SOk (st, None : obs)) = SOk (st1, None)) end.
    rewrite E0. cbn [mbind sres_bind]. by rewrite E1. }
  assert (Hag : agree (@h_detach_loop Checked env (@h_element_children_next Checked env) (fun i => (a <=? i) && (i <? b)) (S (length (gchildren g))) 0 (HC q.1 None false))
     (@h_detach_loop Wrapping env (@h_element_children_next Wrapping env) (fun i => (a <=? i) && (i <? b)) (S (length (gchildren g))) 0 (HC q.1 None false))).
  { apply a_detach_loop. intros it. apply a_element_next. }
  destruct ((a <? b) && (a <? length cs)) eqn:Eab.
  - eapply xm_bind; [|exact Hag|by split; intros Hp; exfalso; [eapply s_detach_mut|eapply s_detach_stuck]|].
    + instantiate (1 := fun st1 _ h2 => exists zs1 (q1 : hpos), sim st1 hs zs1 lk [] h2 /\ zs1 !! s = Some (Some q1) /\ q1.1 = q.1).
      destruct q as [xq [nq pq]]. unfold s_detach. cbn [fst snd] in *. rewrite HT. simpl. rewrite last_snoc, removelast_last.
      assert (is_Some (cs !! a)) as (y&Hy). { apply lookup_lt_is_Some. apply andb_true_iff in Eab as [_ Eab]. by apply Nat.ltb_lt in Eab. }
      rewrite (tsub_kid _ _ _ _ _ Ht), Hy. simpl. eapply wp_mono; [exact Hloop|]. cbv beta. intros [] h2 (x&Hx&HS2). rewrite Hy in Hx. injection Hx as <-.
      eexists _, _. split; [by eapply (sim_detach_move st hs zs lk []); [|done|]|]. split; [by apply slot_moved|done].
    + intros st1 [] h2 Est (zs1&q1&Hsim1&Hq1&Eq). rewrite <- Eq. eapply xm_mono; [exact (HL st1 Est)| |by eapply x_attach_all]. intros Hm1 Hm2. by eapply Hm1, mute_detach.
  - eapply xm_wp; [exact Hloop|exact Hag|]. cbv beta. intros [] h2 HS2. eapply xm_mono; [exact (HL st eq_refl)|exact (fun x => x)|]. eapply x_attach_all; [|done|done]. by eapply sim_setx.
Qed.
Lemma x_detach_kids L M (tok : bool) st hs zs lk h s (q : hpos) : sim st hs zs lk [] h -> zs !! s = Some (Some q) ->
  xm L M (s_detach_kids tok s st)
    (g ← h_green q.1; it ← h_children_new q.1;
     @h_detach_loop Checked env (@h_kids_next env Checked tok) (fun _ => true) (S (length (gchildren g))) 0 it)
    (g ← h_green q.1; it ← h_children_new q.1;
     @h_detach_loop Wrapping env (@h_kids_next env Wrapping tok) (fun _ => true) (S (length (gchildren g))) 0 it) h.
Proof using Henv.
  intros Hsim Hq. unfold s_detach_kids, s_detach_first. rewrite (sim_pos_slot _ _ _ _ _ _ _ _ Hsim Hq). cbn [of_slot mbind sres_bind].
  unfold s_elem. destruct (s_trees st !! q.2.1) as [[m t]|] eqn:HT; [|apply xm_no]. destruct (tsub t q.2.2) as [[k cs|]|] eqn:Ht; [|apply xm_no|apply xm_no]. cbn [mbind sres_bind is_node ill_unless tchildren].
  pose proof (sm_sim _ _ _ _ _ _ Hsim) as HS. assert (Hqin : q ∈ [] ++ somes zs ++ lk) by (apply elem_of_app; right; apply elem_of_app; left; by eapply slot_elem).
  eapply xm_wp; [by eapply sim_green_len|ag|]. intros g h' (Hlen&->).
  eapply xm_wp; [by apply sim_children_new|ag|]. intros it h1 (->&HS1). simpl in HS1.
  apply xm_panic. { destruct (first_at _ cs 0); [|done]. cbn [mbind sres_bind]. destruct (s_detach _ st) eqn:Ed; try done. by apply s_detach_stuck in Ed. }
  intros Ep. destruct (first_at (kid_sel tok) cs 0) as [j|] eqn:Ej; cbn [mbind sres_bind] in Ep; [|done].
  destruct m. { exfalso. destruct (s_detach _ st) eqn:Ed; try done. by eapply s_detach_mut. }
  cbn [h_detach_loop].
  pose proof (sim_kids_next env Henv tok h1 (s_trees st) (somes zs ++ lk) (somes (h_greens hs)) q.2 false t k cs (HC q.1 None false) (sel_from (kid_sel tok) cs 0) [(q.1, q.2)]) as Hk.
  specialize (Hk ltac:(by destruct q) ltac:(apply it_new) HT Ht ltac:(by intros ? ? [=])). rewrite sel_from_step, Ej in Hk.
  apply exact_wp; [ag|]. eapply wp_mono; [exact Hk|]. cbv beta. intros [o it1] h2 (x&Zi&Eo&_&_&_&_&_&HS2). simpl in Eo. subst o.
  cbv beta iota. left. unfold mbind, hm_bind. cbn [andb].
  assert (Hx : forall bld, @h_detach bld env x h2 = (Err Panic, h2)).
  { intros bld. apply (x_detach_imm (bld':=bld) _ _ _ _ (x, (q.2.1, q.2.2 ++ [j])) t HS2); [left|exact HT]. }
  by rewrite !Hx.
Qed.
Lemma s_detach_all_mut fuel f n p : forall st t, s_trees st !! n = Some (true, t) -> s_detach_all fuel f (n, p) st <> SPanic.
Proof.
  induction fuel as [|fuel IH]; intros st t HT; [done|]. cbn [s_detach_all]. unfold s_detach_first, s_elem. cbn [fst snd]. rewrite HT.
  destruct (tsub t p) as [[k cs|]|] eqn:Ht; [|done|done]. cbn [mbind sres_bind is_node ill_unless tchildren].
  destruct (first_at f cs 0) as [j|]; [|done].
  destruct (s_detach _ st) as [st1| | |] eqn:Ed; cbn [mbind sres_bind]; [|by eapply s_detach_mut in Ed|done|done].
  unfold s_detach in Ed. cbn [fst snd] in Ed. rewrite HT in Ed. simpl in Ed. rewrite last_snoc in Ed. destruct (tsub t (p ++ [j])) as [y|]; [|done]. injection Ed as <-.
  eapply IH. simpl. apply lookup_app_l_Some, list_lookup_insert. by eapply lookup_lt_Some.
Qed.
Lemma s_detach_all_stuck fuel f h : forall st, s_detach_all fuel f h st <> SStuck.
Proof.
  induction fuel as [|fuel IH]; intros st; [done|]. cbn [s_detach_all]. unfold s_detach_first, s_elem.
  destruct (s_trees st !! h.1) as [[m t]|]; [|done]. destruct (tsub t h.2) as [[k cs|]|]; [|done|done]. cbn [mbind sres_bind is_node ill_unless tchildren].
  destruct (first_at f cs 0) as [j|]; [|done]. destruct (s_detach _ st) as [st1| | |] eqn:Ed; cbn [mbind sres_bind]; [apply IH|done|by apply s_detach_stuck in Ed|done].
Qed.
Lemma x_by_kind L M (tok : bool) m st hs zs lk h s (q : hpos) : sim st hs zs lk [] h -> zs !! s = Some (Some q) ->
  xm L M (s_detach_by_kind tok m s st)
    (g ← h_green q.1; nx ← @h_by_kind_new env Checked tok m q.1; @h_by_kind_detach_loop env Checked tok m (S (length (gchildren g))) nx)
    (g ← h_green q.1; nx ← @h_by_kind_new env Wrapping tok m q.1; @h_by_kind_detach_loop env Wrapping tok m (S (length (gchildren g))) nx) h.
Proof using Henv.
  intros Hsim Hq. unfold s_detach_by_kind. rewrite (sim_pos_slot _ _ _ _ _ _ _ _ Hsim Hq). cbn [of_slot mbind sres_bind].
  unfold s_elem at 1. destruct (s_trees st !! q.2.1) as [[mu t]|] eqn:HT; [|apply xm_no]. destruct (tsub t q.2.2) as [x|] eqn:Ht; [|apply xm_no]. cbn [mbind sres_bind].
  apply xm_panic; [apply s_detach_all_stuck|].
  destruct mu. { intros Ep. exfalso. destruct q as [xq [nq pq]]. by eapply s_detach_all_mut. }
  cbn [s_detach_all]. unfold s_detach_first, s_elem. rewrite HT, Ht. cbn [mbind sres_bind].
  destruct x as [k cs|]; [|done]. cbn [is_node ill_unless mbind sres_bind tchildren].
  pose proof (sm_sim _ _ _ _ _ _ Hsim) as HS. assert (Hqin : q ∈ [] ++ somes zs ++ lk) by (apply elem_of_app; right; apply elem_of_app; left; by eapply slot_elem).
  destruct (first_at (kid_sel_kind tok m) cs 0) as [j|] eqn:Ej; [|done]. intros _.
  pose proof (first_at_is (kid_sel_kind tok m) cs 0) as Hfirst. rewrite Ej in Hfirst. destruct Hfirst as (_&(y&Hy&Hsel)&_).
  apply exact_wp; [ag|]. eapply wp_mono; [by eapply sim_green_len|]. intros g h' (Hlen&->).
  apply exact_wp; [ag|].
  eapply (wp_mono _ (fun nx h' => exists x, nx = Some x /\ simH h' (s_trees st) ((x, (q.2.1, q.2.2 ++ [j])) :: somes zs ++ lk) (somes (h_greens hs)))).
  { apply wp_bind. eapply wp_mono; [by apply sim_clone|]. cbv beta. intros ? h1 (->&HS1). apply wp_bind.
    eapply wp_mono; [eapply (sim_nav env Henv _ _ _ _ _ q false t); [exact HS1|left|exact HT|]|].
    { instantiate (1 := Some (q.2.2 ++ [j])). transitivity (SOk ((fun j => q.2.2 ++ [j]) <$> first_at (kid_sel_kind tok m) cs 0)); [|by rewrite Ej]. unfold kid_sel_kind.
      destruct tok; simpl; unfold down; by rewrite Ht. }
    cbv beta. intros nx h2 (Zn&Hg&HS2). apply wp_bind.
    eapply wp_mono; [eapply (sim_drop h2 _ (Zn ++ somes zs ++ lk) _ q); eapply simH_perm; [|exact HS2]; symmetry; apply Permutation_middle|].
    intros [] h3 HS3. apply wp_ret. destruct nx as [x|]; simpl in Hg; [|done]. subst Zn. by exists x. }
  cbv beta. intros ? h1 (x&->&HS1). cbn [h_by_kind_detach_loop].
  apply exact_wp; [ag|].
  eapply (wp_mono _ (fun r h' => exists nx Zn, r = (Some x, nx) /\ simH h' (s_trees st) (Zn ++ [(x, (q.2.1, q.2.2 ++ [j]))] ++ somes zs ++ lk) (somes (h_greens hs)))).
  { apply wp_bind. eapply wp_mono; [eapply (sim_nav env Henv _ _ _ _ _ (x, (q.2.1, q.2.2 ++ [j])) false t ((fun i => q.2.2 ++ [i]) <$> first_at (kid_sel_kind tok m) cs (S j)) HS1); [left|exact HT|]|].
    - cbn [fst snd]. destruct tok; simpl; rewrite (sideways_snoc _ _ _ _ _ _ Ht); [done|]. unfold for_node. rewrite (tsub_kid _ _ _ _ _ Ht), Hy.
      unfold kid_sel_kind, node_by_kind in Hsel. apply andb_true_iff in Hsel as [_ Hsel]. by destruct y.
    - cbv beta. intros nx h2 (Zn&Hg&HS2). apply wp_ret. eauto. }
  cbv beta. intros ? h2 (nx&Zn&->&HS2). cbv beta iota. left. unfold mbind, hm_bind.
  assert (Hx : forall bld, @h_detach bld env x h2 = (Err Panic, h2)).
  { intros bld. apply (x_detach_imm (bld':=bld) _ _ _ _ (x, (q.2.1, q.2.2 ++ [j])) t HS2); [|exact HT]. apply elem_of_app. right. left. }
  by rewrite !Hx.
Qed.

(** ** One step *)
Lemma x_assoc3 {A C E1 E2 E3} L M (s : sres A) (f : A -> C) (m1 : hm E1) (d2 r2 : E1 -> hm E2) (d3 r3 : E1 -> E2 -> hm E3) (hs : hst) Q h :
  meets s (a ← m1; b ← d2 a; d3 a b) Q h -> xm L M s (a ← m1; b ← d2 a; d3 a b) (a ← m1; b ← r2 a; r3 a b) h ->
  xm L M (a ← s; SOk (f a)) (a ← m1; b ← d2 a; _ ← d3 a b; mret (hs, None : obs)) (a ← m1; b ← r2 a; _ ← r3 a b; mret (hs, None : obs)) h.
Proof.
  intros Hm [Hx1 Hx2].
  assert (H : forall L, (exists e, ((a ← m1; b ← d2 a; d3 a b) h).1 = Err e) -> exact L (a ← m1; b ← d2 a; d3 a b) (a ← m1; b ← r2 a; r3 a b) h ->
    exact L (a ← m1; b ← d2 a; _ ← d3 a b; mret (hs, None : obs)) (a ← m1; b ← r2 a; _ ← r3 a b; mret (hs, None : obs)) h).
  { clear. intros L [e Hm] [E|HL]; [left|by right]. unfold mbind, hm_bind in *. destruct (m1 h) as [[a|] h1]; [|done].
    destruct (d2 a h1) as [[b|] h2], (r2 a h1) as [[b'|] h2']; simpl in *.
    - destruct (d3 a b h2) as [[]?], (r3 a b' h2') as [[]?]; simpl in *; by simplify_eq.
    - destruct (d3 a b h2) as [[]?]; simpl in *; by simplify_eq.
    - destruct (r3 a b' h2') as [[]?]; simpl in *; by simplify_eq.
    - by simplify_eq. }
  split; intros Ep.
  - assert (s = SPanic) as -> by (by destruct s). apply H; [eauto|by apply Hx1].
  - assert (s = SStuck) as -> by (by destruct s). apply H; [simpl in Hm; destruct Hm; eauto|by apply Hx2].
Qed.
Lemma x_step o st hs h : simulates st hs h -> xm (too_long o st) (~ mute st) (s_step o st) (@hstep Checked env o hs) (@hstep Wrapping env o hs) h.
Proof using Henv.
  intros (zs&lk&Hsim). pose proof (sm_sim _ _ _ _ _ _ Hsim) as HS. cbn [app] in HS.
  assert (Hslot : forall L M s {C} (f : nat * pos -> sres C) {B} (d r : id -> hm B),
    (forall z : hpos, zs !! s = Some (Some z) -> z ∈ somes zs ++ lk -> xm L M (f z.2) (d z.1) (r z.1) h) ->
    xm L M (of_slot (A:=nat * pos) (s_handles st !! s) ≫= f) (h_slot (h_handles hs !! s) ≫= d) (h_slot (h_handles hs !! s) ≫= r) h).
  { intros L M s C f B d r Hf. apply xm_slot. intros hh Hh. destruct (sim_slot _ _ _ _ _ _ _ _ Hsim Hh) as (z&Hz&->&Hzh&Hin). rewrite Hzh.
    exact (Hf z Hz Hin). }
  destruct o; cbn [s_step hstep].
  - apply xm_ill. intros _. apply xm_ok.
  - destruct (mapM (fun g => mjoin (s_greens st !! g)) els) as [ts|] eqn:Ets; [|apply xm_no]. apply xm_panic; [by destruct (_ <=? _)%N|]. intros Ep. right. exists ts. split; [done|].
    unfold panic_unless in Ep. destruct (N.leb_spec (blen (ttext (Node k ts))) u32_max); [done|lia].
  - apply xm_slot. intros ? _. apply xm_ok.
  - apply xm_slot. intros t Ht. apply xm_ill. intros _. apply xm_ok.
  - apply Hslot. intros z Hz Hin. apply xm_elem. intros. apply xm_ok.
  - apply xm_slot. intros ? _. apply xm_ok.
  - apply xm_slot. intros ? _. apply xm_ok.
  - apply xm_slot. intros hh Hh. destruct (s_trees st !! hh.1) as [[m t]|]; [|apply xm_no]. pose proof (s_nav_ok n t hh.2) as [H1 H2].
    destruct (s_nav n t hh.2); [apply xm_ok|done|done|apply xm_no].
  - apply xm_slot. intros hh Hh. destruct (s_trees st !! hh.1) as [[m t]|]; [|apply xm_no].
    pose proof (s_nav_ok (if tok then NNextSiblingOrToken else NNextSibling) t hh.2) as [H1 H2]. destruct (s_nav _ t hh.2); [apply xm_ok|done|done|apply xm_no].
  - (* clone_for_update *)
    apply Hslot. intros z Hz Hin. apply xm_elem. intros m t x HT Ht. apply xm_ill. intros Hn. destruct m; cbn [negb panic_unless mbind sres_bind]; [|rewrite HT; apply xm_ok].
    apply xm_panic; [done|]. intros _. destruct (simH_alive _ _ _ _ _ HS Hin) as (r&m'&cz&Hl&HT'&Hcz&Hm&_). rewrite HT in HT'. injection HT' as <- ->.
    rewrite P_pc in Hcz. destruct (hn h !! z.1) as [nz|] eqn:Hnz; [|done]. injection Hcz as <-. left.
    unfold h_clone_for_update, mbind, hm_bind, h_size. simpl. unfold mbind, hm_bind, h_get. rewrite Hnz. simpl in Hm. by rewrite Hm.
  - apply Hslot. intros z Hz Hin. apply xm_elem. intros m t x HT Ht. apply xm_ill. intros _. apply xm_ok.
  - (* detach *)
    apply Hslot. intros z Hz Hin. eapply xm_bind; [by eapply (sim_do_detach env Henv st hs zs lk [])|ag|by eapply x_detach|intros; apply xm_ok].
  - (* splice_children *)
    destruct (s_handles st !! s) as [[hh|]|] eqn:Eh; [|unfold s_splice; rewrite Eh; apply xm_no|unfold s_splice; rewrite Eh; apply xm_no].
    destruct (sim_slot _ _ _ _ _ _ _ _ Hsim Eh) as (z&Hz&->&Hzh&_). rewrite Hzh. cbn [h_slot].
    destruct (forallb (fun c => bool_decide (is_Some (mjoin (s_handles st !! c)))) ins) eqn:Eins.
    2: { unfold s_splice. rewrite Eh. cbn [of_slot mbind sres_bind]. unfold s_elem. destruct (s_trees st !! z.2.1) as [[??]|]; [|apply xm_no].
         destruct (tsub _ _); [|apply xm_no]. cbn [mbind sres_bind]. rewrite Eins, andb_false_r. apply xm_no. }
    destruct (mapM_slots _ _ _ _ _ _ Hsim Eins) as (xs&Hxs&HF). rewrite Hxs.
    change (mret z.1 ≫= ?f) with (f z.1).
    eapply xm_bind; [by eapply (sim_do_splice env Henv)|ag|by eapply x_splice|intros; apply xm_ok].
  - destruct (s_handles st !! s) as [[hh|]|] eqn:Eh; [|unfold s_detach_kids; rewrite Eh; apply xm_no|unfold s_detach_kids; rewrite Eh; apply xm_no].
    destruct (sim_slot _ _ _ _ _ _ _ _ Hsim Eh) as (z&Hz&->&Hzh&_). rewrite Hzh. cbn [h_slot].
    change (mret z.1 ≫= ?f) with (f z.1). cbv beta. eapply x_assoc3; [by eapply (sim_do_detach_kids env Henv)|by eapply x_detach_kids].
  - destruct (s_handles st !! s) as [[hh|]|] eqn:Eh; [|unfold s_detach_by_kind; rewrite Eh; apply xm_no|unfold s_detach_by_kind; rewrite Eh; apply xm_no].
    destruct (sim_slot _ _ _ _ _ _ _ _ Hsim Eh) as (z&Hz&->&Hzh&_). rewrite Hzh. cbn [h_slot].
    change (mret z.1 ≫= ?f) with (f z.1). cbv beta. eapply x_assoc3; [by eapply (sim_do_by_kind env Henv)|by eapply x_by_kind].
  - apply xm_slot. intros hh Hh. pose proof (s_look_ok st hh) as [H1 H2]. destruct (s_look st hh); [apply xm_ok|done|done|apply xm_no].
  - (* child_or_token_at_range *)
    apply Hslot. intros z Hz Hin. apply xm_elem. intros m t x Ht Hx. apply xm_ill. intros [Hn Hab%N.leb_le]%andb_prop.
    destruct x as [k cs|]; [|done]. unfold s_range. rewrite Ht. destruct (trange t z.2.2) as [[o e]|] eqn:Er; [|apply xm_no]. cbn [mbind sres_bind].
    pose proof (sim_at_range env Henv _ _ _ _ _ _ _ _ _ _ _ _ _ HS Hin Ht Hx Er Hab) as Hat.
    destruct (N.leb_spec o a) as [Hle|Hlt]; [apply xm_ok|]. apply xm_panic; [done|]. intros _. apply exact_first; [|eauto].
    destruct (simH_alive _ _ _ _ _ HS Hin) as (r&m'&cz&Hl&HT'&Hcz&Hm&Hsub). rewrite Ht in HT'. injection HT' as <- ->.
    pose proof HS as [Hi HZ]. pose proof Hi as (K&R&Hs&Ho&_). destruct (inv_loc_tree _ _ _ _ _ _ Hi Hl) as (cur&cz'&Hc&Hcz'&Hg&Hw&Hv).
    assert (cz' = cz) as -> by congruence. rewrite (crange_trange _ Hw _ _ Hc) in Er. unfold crange in Er. injection Er as Ho' _.
    unfold h_child_or_token_at_range. apply exact_wp; [ag|]. eapply wp_offset; [done|done|exact Hv|]. rewrite Ho'.
    left. unfold mbind, hm_bind, lift, range_sub. simpl. by rewrite (proj2 (N.leb_gt _ _) Hlt).
  - (* splice_children on greens *)
    apply xm_slot. intros t Ht. destruct (sim_gslot _ _ _ _ _ _ _ _ Hsim Ht) as (x&Hx&He&Hin). rewrite Hx. apply xm_ill. intros Hn.
    destruct (mapM (fun g => mjoin (s_greens st !! g)) els) as [ts|] eqn:Ets; [|apply xm_no].
    destruct (mapM_green _ _ _ _ _ _ _ Hsim Ets) as (gs&Egs&<-&HF). rewrite Egs.
    assert (Elen : length (tchildren t) = length (kids x)). { rewrite <- He, length_erase_children. unfold kids. by rewrite map_length. }
    cbv zeta. destruct ((a <=? b) && (b <=? length (tchildren t))) eqn:Eab; cbn [panic_unless mbind sres_bind].
    + apply xm_panic; [by destruct (_ <=? _)%N|]. intros Ep. right. exists t, (map erase gs). split_and!; [done|done|]. unfold panic_unless in Ep. destruct (N.leb_spec (blen (ttext (Node (tkind t) (take a (tchildren t) ++ map erase gs ++ drop b (tchildren t))))) u32_max); [done|lia].
    + apply xm_panic; [done|]. intros _. left. unfold mbind, hm_bind, h_green_build, h_slot, mret, hm_ret. unfold green_splice_children. fold (kids x).
      rewrite !vec_splice_panic; [done|]. simpl. rewrite <- Elen. intros [H1 H2]. apply Nat.leb_le in H1, H2. by rewrite H1, H2 in Eab.
  - (* replace_child on greens *)
    apply xm_slot. intros t Ht. apply xm_ill. intros Hn. apply xm_slot. intros t2 Ht2. cbv zeta. apply xm_panic; [by destruct (_ <=? _)%N|]. intros Ep. right. exists t, t2. split_and!; [done|done|].
    unfold panic_unless in Ep. destruct (N.leb_spec (blen (ttext (Node (tkind t) (<[i:=t2]> (tchildren t))))) u32_max); [done|lia].
  - (* a child of a green *)
    split; intros _; by left.
  - apply xm_slot. intros ? _. apply xm_ok.
Qed.
End refused.
