(** * Which trees a call can touch (specification only) *)
From Verif Require Export ClientFacts.

(** nothing outside [N] has changed; what was in [N] stays in [N] *)
Definition frame (N : nat -> Prop) (st st' : sst) : Prop :=
  length (s_trees st) <= length (s_trees st') /\
  (forall n, ~ N n -> n < length (s_trees st) -> s_trees st' !! n = s_trees st !! n) /\
  (forall s h, s_handles st !! s = Some (Some h) -> ~ N h.1 -> s_handles st' !! s = Some (Some h)) /\
  (forall s h', s_handles st' !! s = Some (Some h') -> exists h, s_handles st !! s = Some (Some h) /\ (N h.1 -> N h'.1)) /\
  s_greens st' = s_greens st /\ s_leaked st' = s_leaked st.
Lemma frame_refl (N : nat -> Prop) st : frame N st st.
Proof. split_and!; eauto. Qed.
Lemma frame_trans (N : nat -> Prop) a b c : (forall n, length (s_trees a) <= n -> N n) -> frame N a b -> frame N b c -> frame N a c.
Proof.
  intros HN (A1&A2&A3&A4&A5&A6) (B1&B2&B3&B4&B5&B6). split_and!; [lia| | | |congruence|congruence].
  - intros n Hn Hl. rewrite (B2 n Hn) by lia. by apply A2.
  - intros s h Hs Hn. apply B3; [by apply A3|done].
  - intros s h Hs. destruct (B4 s h Hs) as (h1&H1&E1). destruct (A4 s h1 H1) as (h0&H0&E0). eauto.
Qed.

Lemma frame_detach (N : nat -> Prop) n p i t x st :
  N n -> (forall m, length (s_trees st) <= m -> N m) -> n < length (s_trees st) -> frame N st (after_detach n p i t x st).
Proof.
  intros Hn Hnew Hlt. split_and!; simpl.
  - rewrite app_length, insert_length. lia.
  - intros m Hm Hl. rewrite lookup_app_l by (rewrite insert_length; lia). rewrite list_lookup_insert_ne; [done|]. by intros ->.
  - intros s [m q] Hs Hm. rewrite move_lookup, Hs. simpl. unfold detach_handle. simpl in *. destruct (Nat.eqb_spec m n) as [->|]; [done|done].
  - intros s h' Hs. rewrite move_lookup in Hs. destruct (s_handles st !! s) as [[[m q]|]|]; try done. simpl in Hs. injection Hs as <-.
    exists (m, q). split; [done|]. simpl. intros Hm. unfold detach_handle. simpl. destruct (Nat.eqb_spec m n) as [->|]; [|done].
    destruct (pos_removed p i q); simpl; [by apply Hnew|done].
  - done.
  - done.
Qed.
Lemma frame_attach (N : nat -> Prop) n p i c m t tc st :
  N n -> N c -> frame N st (after_attach n p i c m t tc st).
Proof.
  intros Hn Hc. split_and!; simpl.
  - by rewrite insert_length.
  - intros k Hk Hl. rewrite list_lookup_insert_ne; [done|]. by intros ->.
  - intros s [k q] Hs Hk. rewrite move_lookup, Hs. simpl. unfold attach_handle. simpl in *.
    destruct (Nat.eqb_spec k n) as [->|]; [done|]. destruct (Nat.eqb_spec k c) as [->|]; [done|done].
  - intros s h' Hs. rewrite move_lookup in Hs. destruct (s_handles st !! s) as [[[k q]|]|]; try done. simpl in Hs. injection Hs as <-.
    exists (k, q). split; [done|]. simpl. intros Hk. unfold attach_handle. simpl. destruct (Nat.eqb_spec k n); [done|]. by destruct (Nat.eqb_spec k c).
  - done.
  - done.
Qed.
(** the handles of slots in [D] may be used up *)
Definition frame_but (D : list nat) (N : nat -> Prop) (st st' : sst) : Prop :=
  length (s_trees st) <= length (s_trees st') /\
  (forall n, ~ N n -> n < length (s_trees st) -> s_trees st' !! n = s_trees st !! n) /\
  (forall s h, s ∉ D -> s_handles st !! s = Some (Some h) -> ~ N h.1 -> s_handles st' !! s = Some (Some h)) /\
  (forall s h', s_handles st' !! s = Some (Some h') -> exists h, s_handles st !! s = Some (Some h) /\ (N h.1 -> N h'.1)) /\
  s_greens st' = s_greens st /\ s_leaked st' = s_leaked st.
Lemma frame_but_of D (N : nat -> Prop) st st' : frame N st st' -> frame_but D N st st'.
Proof. intros (?&?&?&?&?&?). split_and!; eauto. Qed.
Lemma frame_but_trans D (N : nat -> Prop) a b c : (forall n, length (s_trees a) <= n -> N n) -> frame_but D N a b -> frame_but D N b c -> frame_but D N a c.
Proof.
  intros HN (A1&A2&A3&A4&A5&A6) (B1&B2&B3&B4&B5&B6). split_and!; [lia| | | |congruence|congruence].
  - intros n Hn Hl. rewrite (B2 n Hn) by lia. by apply A2.
  - intros s h Hd Hs Hn. apply B3; [done| |done]. by apply A3.
  - intros s h Hs. destruct (B4 s h Hs) as (h1&H1&E1). destruct (A4 s h1 H1) as (h0&H0&E0). eauto.
Qed.
Lemma frame_but_mono D D' (N : nat -> Prop) st st' : frame_but D N st st' -> (forall s, s ∈ D -> s ∈ D') -> frame_but D' N st st'.
Proof. intros (?&?&H&?&?&?) HD. split_and!; try done. intros s h Hs. apply H. auto. Qed.
Lemma frame_del c (N : nat -> Prop) st : frame_but [c] N st (del_handle c st).
Proof.
  split_and!; simpl; try done.
  - intros s h Hs. apply not_elem_of_cons in Hs as [Hs _]. by rewrite list_lookup_insert_ne.
  - intros s h Hs. destruct (Nat.eq_dec s c) as [->|Hne].
    + destruct (decide (c < length (s_handles st))); [by rewrite list_lookup_insert in Hs|]. rewrite list_insert_ge in Hs by lia. eauto.
    + rewrite list_lookup_insert_ne in Hs by done. eauto.
Qed.

Lemma s_detach_frame (N : nat -> Prop) h st st' : (forall m, length (s_trees st) <= m -> N m) -> N h.1 -> s_detach h st = SOk st' -> frame N st st'.
Proof.
  destruct h as [n p]. intros HN Hn H. simpl in Hn. destruct (s_trees st !! n) as [[m t]|] eqn:Ht; [|unfold s_detach in H; simpl in H; by rewrite Ht in H].
  destruct m; [|by rewrite (s_detach_imm _ _ _ _ Ht) in H]. destruct p as [|i p _] using rev_ind.
  - rewrite (s_detach_root _ _ _ Ht) in H. injection H as <-. apply frame_refl.
  - destruct (tsub t (p ++ [i])) as [x|] eqn:Hx.
    + rewrite (s_detach_eq _ _ _ _ _ _ Ht Hx) in H. injection H as <-. apply frame_detach; [done|done|by eapply lookup_lt_Some].
    + unfold s_detach in H. simpl in H. rewrite Ht in H. simpl in H. rewrite last_snoc in H. by rewrite Hx in H.
Qed.
Lemma s_attach_root_frame (N : nat -> Prop) n p i c st st' : N n -> N c -> s_attach_root n p i c st = SOk st' -> frame N st st'.
Proof.
  intros Hn Hc H. unfold s_attach_root in H. destruct (s_trees st !! n) as [[m t]|] eqn:Et; [|done]. destruct (s_trees st !! c) as [[mc tc]|]; [|done].
  destruct (tsub t p) as [[k cs|]|]; try done. destruct (n =? c); [done|]. destruct (_ && _); [|done]. simpl in H. injection H as <-. by apply frame_attach.
Qed.
Lemma of_slot_some {A} (o : option (option A)) a : of_slot o = SOk a -> o = Some (Some a).
Proof. destruct o as [[]|]; try done. by intros [= ->]. Qed.
Lemma bind_ok {A B} (m : sres A) (f : A -> sres B) b : m ≫= f = SOk b -> exists a, m = SOk a /\ f a = SOk b.
Proof. destruct m; simpl; try done. eauto. Qed.
Lemma s_elem_ok st (h : nat * pos) m x : s_elem st h = SOk (m, x) -> exists t, s_trees st !! h.1 = Some (m, t) /\ tsub t h.2 = Some x.
Proof. unfold s_elem. destruct (s_trees st !! h.1) as [[m0 t0]|] eqn:Ht; [|done]. destruct (tsub t0 h.2) eqn:Hp; [|done]. intros [= -> ->]. eauto. Qed.
Lemma s_attach_frame (N : nat -> Prop) s i c st st' :
  (forall m, length (s_trees st) <= m -> N m) ->
  (forall h, s_handles st !! s = Some (Some h) -> N h.1) -> (forall h, s_handles st !! c = Some (Some h) -> N h.1) ->
  s_attach s i c st = SOk st' -> frame_but [c] N st st'.
Proof.
  intros HN Hs Hc H. unfold s_attach in H. apply bind_ok in H as (h&H1%of_slot_some&H). apply bind_ok in H as ([m x]&_&H).
  apply bind_ok in H as ([]&_&H). apply bind_ok in H as (hc&H2%of_slot_some&H). apply bind_ok in H as (st1&Hd&H).
  apply bind_ok in H as (h'&H3%of_slot_some&H). apply bind_ok in H as (hc'&H4%of_slot_some&H). apply bind_ok in H as (st2&Ha&H). injection H as <-.
  pose proof (s_detach_frame N hc st st1 HN (Hc _ H2) Hd) as Hf1. pose proof Hf1 as (F1&_&_&F4&_).
  assert (N h'.1). { destruct (F4 s h' H3) as (h0&E0&En). apply En. eauto. }
  assert (N hc'.1). { destruct (F4 c hc' H4) as (h0&E0&En). apply En. eauto. }
  pose proof (s_attach_root_frame N _ _ _ _ _ _ H H0 Ha) as Hf2.
  eapply frame_but_trans; [done|apply frame_but_of; exact Hf1|].
  eapply frame_but_trans; [intros; apply HN; lia|apply frame_but_of; exact Hf2|]. apply frame_del.
Qed.
Lemma s_attach_all_frame (N : nat -> Prop) s i ins st st' :
  (forall m, length (s_trees st) <= m -> N m) ->
  (forall h, s_handles st !! s = Some (Some h) -> N h.1) -> (forall c h, c ∈ ins -> s_handles st !! c = Some (Some h) -> N h.1) ->
  s_attach_all s i ins st = SOk st' -> frame_but ins N st st'.
Proof.
  revert i st. induction ins as [|c ins IH]; intros i st HN Hs Hc H; simpl in H.
  - injection H as <-. apply frame_but_of, frame_refl.
  - apply bind_ok in H as ([]&_&H). apply bind_ok in H as (st1&Ha&H).
    assert (Hf : frame_but [c] N st st1). { eapply s_attach_frame; [done|done| |done]. intros h. apply Hc. left. }
    pose proof Hf as (F1&_&_&F4&_).
    eapply frame_but_trans; [done|eapply frame_but_mono; [exact Hf|]|].
    + intros u ->%elem_of_list_singleton. left.
    + eapply frame_but_mono; [eapply (IH (S i) st1)|]; [|intros h Hh|intros u h Hu Hh|done|intros u Hu; by right].
      * intros m Hm. apply HN. lia.
      * destruct (F4 s h Hh) as (h0&E0&En). apply En. eauto.
      * destruct (F4 u h Hh) as (h0&E0&En). apply En. eapply Hc; [right; exact Hu|done].
Qed.
Lemma s_detach_first_frame (N : nat -> Prop) f h st o : (forall m, length (s_trees st) <= m -> N m) -> N h.1 -> s_detach_first f h st = SOk o -> frame N st (default st o).
Proof.
  intros HN Hn H. unfold s_detach_first in H. apply bind_ok in H as ([m x]&_&H). apply bind_ok in H as ([]&_&H).
  destruct (first_at f (tchildren x) 0) as [j|]; [|injection H as <-; apply frame_refl].
  apply bind_ok in H as (st1&Hd&H). injection H as <-. simpl. eapply s_detach_frame; [done| |exact Hd]. done.
Qed.
Lemma s_detach_all_frame (N : nat -> Prop) f fuel h st st' : (forall m, length (s_trees st) <= m -> N m) -> N h.1 -> s_detach_all fuel f h st = SOk st' -> frame N st st'.
Proof.
  revert st. induction fuel as [|fuel IH]; intros st HN Hn H; simpl in H; [injection H as <-; apply frame_refl|].
  apply bind_ok in H as (o&Ho&H). pose proof (s_detach_first_frame N f h st o HN Hn Ho) as Hf. destruct o as [st1|]; simpl in Hf.
  - eapply frame_trans; [done|exact Hf|]. apply IH; [|done|done]. destruct Hf as (F1&_). intros. apply HN. lia.
  - by injection H as <-.
Qed.

(** the slots whose trees a mutation may touch, and those it uses up *)
Definition mutates (o : op) : option (list nat * list nat) :=
  match o with
  | ODetach s | ODetachKids _ s | ODetachByKind _ _ s => Some ([s], [])
  | OSplice s _ _ ins => Some (s :: ins, ins)
  | _ => None
  end.
(** mutations leave alone every tree that none of their arguments is in *)
Lemma mutation_frame o st st' x slots used :
  mutates o = Some (slots, used) -> s_step o st = SOk (st', x) ->
  frame_but used (fun n => length (s_trees st) <= n \/ exists s h, s ∈ slots /\ s_handles st !! s = Some (Some h) /\ n = h.1) st st'.
Proof.
  intros Hm H. set (N := fun n => _ \/ _). assert (HN : forall m, length (s_trees st) <= m -> N m) by (intros; by left).
  destruct o as [| | | | | | | | | | |s|s a b ins|tok s|tok m s| | | | | |]; try done; simpl in Hm; injection Hm as <- <-; simpl in H.
  - apply bind_ok in H as (h&H1%of_slot_some&H). apply bind_ok in H as (st1&Hd&H). injection H as <- _. apply frame_but_of.
    eapply s_detach_frame; [done| |exact Hd]. right. exists s, h. split_and!; [left|done|done].
  - apply bind_ok in H as (st1&Hd&H). injection H as <- _. unfold s_splice in Hd.
    apply bind_ok in Hd as (h&H1%of_slot_some&Hd). apply bind_ok in Hd as ([mu y]&_&Hd). apply bind_ok in Hd as ([]&_&Hd). apply bind_ok in Hd as ([]&_&Hd).
    apply bind_ok in Hd as (st2&Hdd&Hd).
    assert (Nh : N h.1). { right. exists s, h. split_and!; [left|done|done]. }
    assert (Hf : frame N st st2). { destruct (_ && _); [|injection Hdd as <-; apply frame_refl]. eapply s_detach_frame; [done| |exact Hdd]. done. }
    pose proof Hf as (F1&_&_&F4&_).
    eapply frame_but_trans; [done|apply frame_but_of; exact Hf|]. eapply s_attach_all_frame; [| | |exact Hd].
    + intros m Hm. apply HN. lia.
    + intros h' Hh'. destruct (F4 s h' Hh') as (h0&E0&En). apply En. right. exists s, h0. split_and!; [left|done|done].
    + intros c h' Hc Hh'. destruct (F4 c h' Hh') as (h0&E0&En). apply En. right. exists c, h0. split_and!; [by right|done|done].
  - apply bind_ok in H as (st1&Hd&H). injection H as <- _. unfold s_detach_kids in Hd. apply bind_ok in Hd as (h&H1%of_slot_some&Hd).
    apply bind_ok in Hd as (o&Ho&Hd). injection Hd as <-. apply frame_but_of. eapply s_detach_first_frame; [done| |exact Ho].
    right. exists s, h. split_and!; [left|done|done].
  - apply bind_ok in H as (st1&Hd&H). injection H as <- _. unfold s_detach_by_kind in Hd. apply bind_ok in Hd as (h&H1%of_slot_some&Hd).
    apply bind_ok in Hd as ([mu y]&_&Hd). apply frame_but_of. eapply s_detach_all_frame; [done| |exact Hd].
    right. exists s, h. split_and!; [left|done|done].
Qed.
(** other calls leave every tree alone *)
Lemma reading_frame o st st' x : mutates o = None -> s_step o st = SOk (st', x) ->
  forall n t, s_trees st !! n = Some t -> s_trees st' !! n = Some t.
Proof.
  intros Hm H n t Ht. destruct o as [k s|k els|g|m g|s|s|s|nv s|tok s|s|s|s|s a b ins|tok s|tok m s|s|ra rb s|a b els g|i e g|i g|g]; try done; simpl in H.
  - apply bind_ok in H as ([]&_&H). by injection H as <- _.
  - destruct (mapM _ els); [|done]. apply bind_ok in H as ([]&_&H). by injection H as <- _.
  - apply bind_ok in H as (y&_&H). by injection H as <- _.
  - apply bind_ok in H as (y&_&H). apply bind_ok in H as ([]&_&H). injection H as <- _. simpl. by apply lookup_app_l_Some.
  - apply bind_ok in H as (y&_&H). apply bind_ok in H as ([]&_&H). by injection H as <- _.
  - apply bind_ok in H as (y&_&H). by injection H as <- _.
  - apply bind_ok in H as (y&_&H). by injection H as <- _.
  - apply bind_ok in H as (y&_&H). destruct (s_trees st !! y.1) as [[]|]; [|done]. apply bind_ok in H as (q&_&H). by injection H as <- _.
  - apply bind_ok in H as (y&_&H). destruct (s_trees st !! y.1) as [[]|]; [|done]. apply bind_ok in H as (q&_&H). injection H as <- _.
    by destruct (negb _ && _ && _).
  - apply bind_ok in H as (y&_&H). apply bind_ok in H as ([]&_&H). apply bind_ok in H as ([]&_&H). apply bind_ok in H as ([]&_&H).
    destruct (s_trees st !! y.1) as [[]|]; [|done]. injection H as <- _. simpl. by apply lookup_app_l_Some.
  - apply bind_ok in H as (y&_&H). apply bind_ok in H as ([]&_&H). apply bind_ok in H as ([]&_&H).
    injection H as <- _. simpl. by apply lookup_app_l_Some.
  - apply bind_ok in H as (y&_&H). apply bind_ok in H as (l&_&H). by injection H as <- _.
  - apply bind_ok in H as (y&_&H). apply bind_ok in H as ([]&_&H). apply bind_ok in H as ([]&_&H). apply bind_ok in H as ([]&_&H).
    apply bind_ok in H as ([]&_&H). by injection H as <- _.
  - apply bind_ok in H as (y&_&H). apply bind_ok in H as ([]&_&H). destruct (mapM _ els); [|done].
    apply bind_ok in H as ([]&_&H). apply bind_ok in H as ([]&_&H). by injection H as <- _.
  - apply bind_ok in H as (y&_&H). apply bind_ok in H as ([]&_&H). apply bind_ok in H as (z&_&H). apply bind_ok in H as ([]&_&H). by injection H as <- _.
  - apply bind_ok in H as (y&_&H). apply bind_ok in H as ([]&_&H). destruct (_ !! i); [|done]. by injection H as <- _.
  - apply bind_ok in H as (y&_&H). by injection H as <- _.
Qed.
(** ** Mutability never changes, immutable trees never change *)
(** proof device, no counterpart in the code *)
Definition mkeep (st st' : sst) : Prop :=
  (forall n t, s_trees st !! n = Some (false, t) -> s_trees st' !! n = Some (false, t)) /\
  (forall s h h', s_handles st !! s = Some (Some h) -> s_handles st' !! s = Some (Some h') -> fst <$> s_trees st' !! h'.1 = fst <$> s_trees st !! h.1) /\
  (forall s h', s_handles st' !! s = Some (Some h') -> s < length (s_handles st) -> full st s) /\
  (forall s h h' t, s_handles st !! s = Some (Some h) -> s_trees st !! h.1 = Some (false, t) -> s_handles st' !! s = Some (Some h') -> h' = h).
Lemma mkeep_refl st : mkeep st st.
Proof. split_and!; [done| |by eexists|congruence]. intros s h h' H1 H2. rewrite H1 in H2. by injection H2 as <-. Qed.
Lemma mkeep_trans a b c : length (s_handles a) <= length (s_handles b) -> mkeep a b -> mkeep b c -> mkeep a c.
Proof.
  intros Hl (A1&A2&A3&A4) (B1&B2&B3&B4). split_and!; [auto| | |].
  - intros s h h' H1 H2. destruct (B3 s h' H2) as [h1 H3]; [apply lookup_lt_Some in H1; lia|]. rewrite (B2 s h1 h' H3 H2). by apply (A2 s).
  - intros s h' H1 H2. destruct (B3 s h' H1) as [h1 H3]; [lia|]. by apply (A3 s h1).
  - intros s h h' t H1 Ht H2. destruct (B3 s h' H2) as [h1 H3]; [apply lookup_lt_Some in H1; lia|]. assert (h1 = h) as -> by (by eapply A4).
    eapply B4; [done|by apply A1|done].
Qed.
Lemma full_move f st s h' : move_handles f (s_handles st) !! s = Some (Some h') -> full st s.
Proof. rewrite move_lookup. destruct (s_handles st !! s) as [[h|]|] eqn:E; [|done|done]. by eexists. Qed.
Lemma mkeep_detach n p i t x st : wf_st st -> s_trees st !! n = Some (true, t) -> tsub t (p ++ [i]) = Some x -> mkeep st (after_detach n p i t x st).
Proof.
  intros Hwf Ht Hx. split_and!.
  - intros m u Hu. assert (m <> n) by congruence. by apply (after_detach_other n p i t x st m [] false u).
  - intros s [m q] h' H1 H2. simpl in H2. rewrite move_lookup, H1 in H2. injection H2 as <-. destruct (Hwf s _ H1) as (mu&tt'&Hm&[y Hy]). simpl in Hm, Hy.
    destruct (Nat.eq_dec m n) as [->|Hne].
    + rewrite Ht in Hm. injection Hm as <- <-. pose proof (after_detach_same n p i t x st q y Ht Hx Hy) as E. cbn [fst]. rewrite Ht.
      destruct (pos_removed p i q); destruct E as (E1&E2&_).
      * rewrite E1. cbn [fst]. by rewrite E2.
      * rewrite E1. cbn [fst]. by rewrite E2.
    + destruct (after_detach_other n p i t x st m q mu tt' Hne Hm) as [E1 E2]. rewrite E1. cbn [fst]. by rewrite E2, Hm.
  - intros s h' H _. exact (full_move _ _ _ _ H).
  - intros s [m q] h' u H1 Hu H2. cbn [s_handles after_detach] in H2. rewrite move_lookup, H1 in H2. injection H2 as <-. cbn [fst] in Hu. assert (m <> n) by congruence.
    by apply (after_detach_other n p i t x st m q false u).
Qed.
Lemma mkeep_attach n p i c t tc k cs st : wf_st st -> n <> c -> s_trees st !! n = Some (true, t) -> s_trees st !! c = Some (true, tc) ->
  tsub t p = Some (Node k cs) -> i <= length cs -> mkeep st (after_attach n p i c true t tc st).
Proof.
  intros Hwf Hne Ht Hc Hp Hi. split_and!.
  - intros m u Hu. simpl. rewrite list_lookup_insert_ne; [done|]. congruence.
  - intros s [m q] h' H1 H2. simpl in H2. rewrite move_lookup, H1 in H2. injection H2 as <-. destruct (Hwf s _ H1) as (mu&tt'&Hm&[y Hy]). simpl in Hm, Hy.
    destruct (Nat.eq_dec m n) as [->|Hn]; [|destruct (Nat.eq_dec m c) as [->|Hmc]].
    + rewrite Ht in Hm. injection Hm as <- <-. destruct (after_attach_same n p i c true t tc st k cs q y Ht Hp Hi Hy) as (E1&E2&_).
      rewrite E1. cbn [fst]. by rewrite E2, Ht.
    + destruct (after_attach_new n p i c true t tc st k cs q Hne Ht Hp Hi) as (E1&E2&_). rewrite E1. cbn [fst]. by rewrite E2, Hc.
    + destruct (after_attach_other n p i c true t tc st m q mu tt' Hn Hmc Hm) as [E1 E2]. rewrite E1. cbn [fst]. by rewrite E2, Hm.
  - intros s h' H _. exact (full_move _ _ _ _ H).
  - intros s [m q] h' u H1 Hu H2. cbn [s_handles after_attach] in H2. rewrite move_lookup, H1 in H2. injection H2 as <-. cbn [fst] in Hu.
    assert (m <> n) by congruence. assert (m <> c) by congruence. by apply (after_attach_other n p i c true t tc st m q false u).
Qed.
Lemma handles_len_detach h st st' : s_detach h st = SOk st' -> length (s_handles st') = length (s_handles st).
Proof.
  unfold s_detach. destruct (s_trees st !! h.1) as [[[] t]|]; simpl; try done. destruct (last h.2); [|by intros [= <-]].
  destruct (tsub t h.2); [|done]. intros [= <-]. simpl. apply map_length.
Qed.
Lemma handles_len_attach n p i c st st' : s_attach_root n p i c st = SOk st' -> length (s_handles st') = length (s_handles st).
Proof.
  unfold s_attach_root. destruct (s_trees st !! n) as [[m t]|]; [|done]. destruct (s_trees st !! c) as [[mc tc]|]; [|done].
  destruct (tsub t p) as [[k cs|]|]; try done. destruct (n =? c); [done|]. destruct (_ && _); [|done]. simpl. intros [= <-]. simpl. apply map_length.
Qed.
Lemma s_detach_mkeep h st st' : wf_st st -> wf_handle st h -> s_detach h st = SOk st' -> wf_st st' /\ keeps st st' /\ mkeep st st'.
Proof.
  intros Hwf Hh H. pose proof (good_detach False h st Hh Hwf) as Hg. rewrite H in Hg. destruct Hg as (H1&H2&_). split_and!; [done|done|].
  destruct h as [n p]. destruct Hh as (m&t&Ht&[x Hx]). simpl in Ht, Hx. destruct m; [|by rewrite (s_detach_imm _ _ _ _ Ht) in H].
  destruct p as [|i p _] using rev_ind.
  - rewrite (s_detach_root _ _ _ Ht) in H. injection H as <-. apply mkeep_refl.
  - rewrite (s_detach_eq _ _ _ _ _ _ Ht Hx) in H. injection H as <-. by apply mkeep_detach.
Qed.
Lemma mkeep_del c st : mkeep st (del_handle c st).
Proof.
  assert (Hk : forall s h', s_handles (del_handle c st) !! s = Some (Some h') -> s_handles st !! s = Some (Some h')).
  { intros s h' H. simpl in H. destruct (Nat.eq_dec s c) as [->|].
    - destruct (decide (c < length (s_handles st))); [by rewrite list_lookup_insert in H|]. by rewrite list_insert_ge in H by lia.
    - by rewrite list_lookup_insert_ne in H. }
  split_and!; [done| | |].
  - intros s h h' H1 H2%Hk. rewrite H1 in H2. by injection H2 as <-.
  - intros s h' H%Hk _. by eexists.
  - intros s h h' t H1 _ H2%Hk. congruence.
Qed.
Lemma s_attach_mkeep s i c st st' : wf_st st -> s <> c -> s_attach s i c st = SOk st' ->
  wf_st st' /\ mkeep st st' /\ length (s_handles st') = length (s_handles st).
Proof.
  intros Hwf Hsc H. unfold s_attach in H. apply bind_ok in H as (h&H1%of_slot_some&H). apply bind_ok in H as ([m x]&He&H).
  apply bind_ok in H as ([]&Hm&H). destruct m; [|done]. apply bind_ok in H as (hc&H2%of_slot_some&H). apply bind_ok in H as (st1&Hd&H).
  apply bind_ok in H as (h'&H3%of_slot_some&H). apply bind_ok in H as (hc'&H4%of_slot_some&H). apply bind_ok in H as (st2&Ha&H). injection H as <-.
  destruct (s_detach_mkeep hc st st1 Hwf (Hwf c hc H2) Hd) as (Hwf1&Hk1&Hmk1). pose proof (handles_len_detach _ _ _ Hd) as Hl1. pose proof (handles_len_attach _ _ _ _ _ _ Ha) as Hl2.
  assert (Hmh : exists t1, s_trees st1 !! h'.1 = Some (true, t1)).
  { pose proof (proj1 (proj2 Hmk1) s h h' H1 H3) as E. unfold s_elem in He. destruct (s_trees st !! h.1) as [[m0 t0]|]; [|done].
    destruct (tsub t0 h.2); [|done]. injection He as -> _. destruct (s_trees st1 !! h'.1) as [[m1 t1]|]; [|done]. simpl in E. injection E as ->. eauto. }
  destruct Hmh as [t1 Ht1].
  assert (Hmc : exists tc, s_trees st1 !! hc'.1 = Some (true, tc)).
  { pose proof (good_detach False hc st (Hwf c hc H2) Hwf) as Hg. rewrite Hd in Hg. destruct Hg as (_&_&Hg).
    destruct (Hwf c hc H2) as (mc&tc&Htc&_). destruct (Hg mc tc Htc) as (_&_&Hg'). destruct (Hg' c H2) as (n'&t'&E1&E2).
    pose proof (eq_trans (eq_sym H4) E1) as E3. injection E3 as ->. eauto. }
  destruct Hmc as [tc Htc]. destruct h' as [n1 p1], hc' as [nc pc]. cbn [fst snd] in *. unfold s_attach_root in Ha. rewrite Ht1, Htc in Ha.
  destruct (tsub t1 p1) as [[k cs|]|] eqn:Hp; try done. destruct (Nat.eqb_spec n1 nc) as [|Hne]; [done|].
  destruct ((i <=? length cs) && _) eqn:Ei; [|done]. apply andb_prop in Ei as [Ei%Nat.leb_le _]. simpl in Ha. injection Ha as Ha.
  change (after_attach n1 p1 i nc true t1 tc st1 = st2) in Ha. subst st2.
  destruct (after_attach_wf n1 p1 i nc true t1 true tc st1 k cs Hne Ht1 Htc Hp Ei Hwf1) as [Hwf2 _].
  pose proof (mkeep_attach n1 p1 i nc t1 tc k cs st1 Hwf1 Hne Ht1 Htc Hp Ei) as Hmk2.
  split_and!.
  - by apply del_handle_wf.
  - eapply mkeep_trans; [|exact Hmk1|eapply mkeep_trans; [|exact Hmk2|apply mkeep_del]]; lia.
  - simpl. rewrite insert_length. unfold move_handles. rewrite map_length. lia.
Qed.
Lemma s_attach_all_mkeep s i ins st st' : wf_st st -> s_attach_all s i ins st = SOk st' -> mkeep st st'.
Proof.
  revert i st. induction ins as [|c ins IH]; intros i st Hwf H; simpl in H.
  - injection H as <-. apply mkeep_refl.
  - apply bind_ok in H as ([]&Hc&H). apply bind_ok in H as (st1&Ha&H). destruct (Nat.eqb_spec c s) as [|Hne]; [done|].
    destruct (s_attach_mkeep s i c st st1 Hwf (not_eq_sym Hne) Ha) as (Hwf1&Hmk&Hl). eapply mkeep_trans; [|exact Hmk|by eapply IH]. lia.
Qed.
Lemma s_detach_first_mkeep f h st o : wf_st st -> wf_handle st h -> s_detach_first f h st = SOk o ->
  wf_st (default st o) /\ mkeep st (default st o) /\ length (s_handles (default st o)) = length (s_handles st).
Proof.
  intros Hwf (m&t&Ht&[x Hx]) H. unfold s_detach_first, s_elem in H. rewrite Ht, Hx in H. simpl in H. destruct x as [k cs|]; [|done]. simpl in H.
  destruct (first_at f cs 0) as [j|] eqn:E; [|injection H as <-; split_and!; [done|apply mkeep_refl|done]].
  apply bind_ok in H as (st1&Hd&H). injection H as <-. simpl. apply first_at_valid in E as [y Hy].
  pose proof (wf_kid st h m t k cs j y Ht Hx Hy) as Hw. destruct (s_detach_mkeep _ _ _ Hwf Hw Hd) as (?&_&?). split_and!; [done|done|by eapply handles_len_detach].
Qed.
Lemma s_detach_all_mkeep f fuel n p st st' m t k cs :
  wf_st st -> s_trees st !! n = Some (m, t) -> tsub t p = Some (Node k cs) -> s_detach_all fuel f (@pair nat pos n p) st = SOk st' -> mkeep st st'.
Proof.
  revert st m t cs. induction fuel as [|fuel IH]; intros st m t cs Hwf Ht Hp H; simpl in H; [injection H as <-; apply mkeep_refl|].
  apply bind_ok in H as (o&Ho&H).
  assert (Hw : wf_handle st (@pair nat pos n p)). { exists m, t. split; [done|]. simpl. rewrite Hp. by eexists. }
  destruct (s_detach_first_mkeep f _ st o Hwf Hw Ho) as (Hwf1&Hmk&Hl).
  pose proof (good_detach_first False f n p st m t k cs Hwf Ht Hp) as Hg. rewrite Ho in Hg. simpl in Hg.
  destruct (first_at f cs 0) as [j|]; [|subst o; injection H as <-; apply mkeep_refl].
  destruct Hg as (st1&->&_&_&_&Ht1). simpl in Hwf1, Hmk, Hl. eapply mkeep_trans; [|exact Hmk|eapply IH; [done|exact Ht1| |exact H]]; [lia|]. by apply tdelete_node.
Qed.
Lemma mkeep_add o st : mkeep st (add_handle o st).
Proof.
  assert (Hk : forall s h', s_handles (add_handle o st) !! s = Some (Some h') -> s < length (s_handles st) -> s_handles st !! s = Some (Some h')).
  { intros s h' H Hl. simpl in H. by rewrite lookup_app_l in H by done. }
  split_and!; [done| | |].
  - intros s h h' H1 H2. apply Hk in H2; [|by eapply lookup_lt_Some]. rewrite H1 in H2. by injection H2 as <-.
  - intros s h' H Hl. apply Hk in H; [by eexists|done].
  - intros s h h' t H1 _ H2. apply Hk in H2; [|by eapply lookup_lt_Some]. congruence.
Qed.
Lemma mkeep_tree m t st : wf_st st -> mkeep st (add_tree m t st).
Proof.
  intros Hwf. split_and!.
  - intros n u Hu. simpl. by apply lookup_app_l_Some.
  - intros s h h' H1 H2. simpl in H2. rewrite H1 in H2. injection H2 as <-. destruct (Hwf s h H1) as (mu&u&E&_). simpl. by rewrite (lookup_app_l_Some _ _ _ _ E), E.
  - intros s h' H _. by eexists.
  - intros s h h' u H1 _ H2. simpl in H2. congruence.
Qed.
Theorem step_mkeep o st st' x : wf_st st -> s_step o st = SOk (st', x) -> mkeep st st'.
Proof.
  intros Hwf H. destruct o as [k s|k els|g|m g|s|s|s|nv s|tok s|s|s|s|s a b ins|tok s|tok m s|s|ra rb s|a b els g|i e g|i g|g]; simpl in H.
  - apply bind_ok in H as ([]&_&H). injection H as <- _. exact (mkeep_refl st).
  - destruct (mapM _ els); [|done]. apply bind_ok in H as ([]&_&H). injection H as <- _. exact (mkeep_refl st).
  - apply bind_ok in H as (y&_&H). injection H as <- _. exact (mkeep_refl st).
  - apply bind_ok in H as (y&_&H). apply bind_ok in H as ([]&_&H). injection H as <- _. eapply mkeep_trans; [|by apply mkeep_tree|apply mkeep_add]. done.
  - apply bind_ok in H as (y&_&H). apply bind_ok in H as ([]&_&H). injection H as <- _. exact (mkeep_refl st).
  - apply bind_ok in H as (y&_&H). injection H as <- _. apply mkeep_add.
  - apply bind_ok in H as (y&_&H). injection H as <- _. apply mkeep_del.
  - apply bind_ok in H as (y&_&H). destruct (s_trees st !! y.1) as [[]|]; [|done]. apply bind_ok in H as (q&_&H). injection H as <- _. apply mkeep_add.
  - apply bind_ok in H as (y&_&H). destruct (s_trees st !! y.1) as [[]|]; [|done]. apply bind_ok in H as (q&_&H). injection H as <- _.
    assert (Hk : mkeep st (add_handle (pair y.1 <$> q) (del_handle s st))).
    { eapply mkeep_trans; [|apply mkeep_del|apply mkeep_add]. simpl. by rewrite insert_length. }
    destruct (negb _ && _ && _); [exact Hk|exact Hk].
  - apply bind_ok in H as (y&_&H). apply bind_ok in H as ([]&_&H). apply bind_ok in H as ([]&_&H). apply bind_ok in H as ([]&_&H).
    destruct (s_trees st !! y.1) as [[]|]; [|done]. injection H as <- _. eapply mkeep_trans; [|by apply mkeep_tree|apply mkeep_add]. done.
  - apply bind_ok in H as (y&_&H). apply bind_ok in H as ([]&_&H). apply bind_ok in H as ([]&_&H).
    injection H as <- _. eapply mkeep_trans; [|by apply mkeep_tree|apply mkeep_add]. done.
  - apply bind_ok in H as (h&H1%of_slot_some&H). apply bind_ok in H as (st1&Hd&H). injection H as <- _.
    by apply (s_detach_mkeep h st st1 Hwf (Hwf s h H1)).
  - apply bind_ok in H as (st1&Hd&H). injection H as <- _. unfold s_splice in Hd.
    apply bind_ok in Hd as (h&H1%of_slot_some&Hd). apply bind_ok in Hd as ([mu y]&He&Hd). apply bind_ok in Hd as ([]&Hi&Hd). apply bind_ok in Hd as ([]&_&Hd).
    apply bind_ok in Hd as (st2&Hdd&Hd). destruct (s_elem_ok _ _ _ _ He) as (t0&Ht&Hp). destruct y as [k cs|]; [|done]. simpl in Hdd.
    destruct ((a <? b) && (a <? length cs)) eqn:E.
    + apply andb_prop in E as [_ E%Nat.ltb_lt]. destruct (lookup_lt_is_Some_2 cs a E) as [y Hy].
      destruct (s_detach_mkeep _ _ _ Hwf (wf_kid st h _ _ _ _ _ _ Ht Hp Hy) Hdd) as (Hwf2&_&Hmk).
      eapply mkeep_trans; [|exact Hmk|by eapply s_attach_all_mkeep]. by rewrite (handles_len_detach _ _ _ Hdd).
    + injection Hdd as <-. by eapply s_attach_all_mkeep.
  - apply bind_ok in H as (st1&Hd&H). injection H as <- _. unfold s_detach_kids in Hd. apply bind_ok in Hd as (h&H1%of_slot_some&Hd).
    apply bind_ok in Hd as (o&Ho&Hd). injection Hd as <-. by apply (s_detach_first_mkeep _ _ _ _ Hwf (Hwf s h H1) Ho).
  - apply bind_ok in H as (st1&Hd&H). injection H as <- _. unfold s_detach_by_kind in Hd. apply bind_ok in Hd as (h&H1%of_slot_some&Hd).
    apply bind_ok in Hd as ([mu y]&He&Hd). destruct (s_elem_ok _ _ _ _ He) as (t0&Ht&Hp). destruct h as [n p]. cbn [fst snd] in *. destruct y as [k cs|].
    + by eapply s_detach_all_mkeep.
    + simpl in Hd. unfold s_detach_first, s_elem in Hd. simpl in Hd. rewrite Ht, Hp in Hd. done.
  - apply bind_ok in H as (y&_&H). apply bind_ok in H as (l&_&H). injection H as <- _. exact (mkeep_refl st).
  - apply bind_ok in H as (y&_&H). apply bind_ok in H as ([]&_&H). apply bind_ok in H as ([]&_&H). apply bind_ok in H as ([]&_&H).
    apply bind_ok in H as ([]&_&H). injection H as <- _. apply mkeep_add.
  - apply bind_ok in H as (y&_&H). apply bind_ok in H as ([]&_&H). destruct (mapM _ els); [|done].
    apply bind_ok in H as ([]&_&H). apply bind_ok in H as ([]&_&H). injection H as <- _. exact (mkeep_refl st).
  - apply bind_ok in H as (y&_&H). apply bind_ok in H as ([]&_&H). apply bind_ok in H as (z&_&H). apply bind_ok in H as ([]&_&H). injection H as <- _. exact (mkeep_refl st).
  - apply bind_ok in H as (y&_&H). apply bind_ok in H as ([]&_&H). destruct (_ !! i); [|done]. injection H as <- _. exact (mkeep_refl st).
  - apply bind_ok in H as (y&_&H). injection H as <- _. exact (mkeep_refl st).
Qed.
(** ** Only [to_next_sibling(_or_token)] leaks *)
(** proof device, no counterpart in the code *)
Definition advances (o : op) : bool := match o with OToNext _ _ => true | _ => false end.
Lemma step_leaked o st st' x : advances o = false -> s_step o st = SOk (st', x) -> s_leaked st' = s_leaked st.
Proof.
  intros Ha H. destruct (mutates o) as [[slots used]|] eqn:Hm; [by destruct (mutation_frame o st st' x slots used Hm H) as (_&_&_&_&_&?)|].
  destruct o as [k s|k els|g|m g|s|s|s|nv s|tok s|s|s|s|s a b ins|tok s|tok m s|s|ra rb s|a b els g|i e g|i g|g]; try done; simpl in H.
  - apply bind_ok in H as ([]&_&H). by injection H as <- _.
  - destruct (mapM _ els); [|done]. apply bind_ok in H as ([]&_&H). by injection H as <- _.
  - apply bind_ok in H as (y&_&H). by injection H as <- _.
  - apply bind_ok in H as (y&_&H). apply bind_ok in H as ([]&_&H). by injection H as <- _.
  - apply bind_ok in H as (y&_&H). apply bind_ok in H as ([]&_&H). by injection H as <- _.
  - apply bind_ok in H as (y&_&H). by injection H as <- _.
  - apply bind_ok in H as (y&_&H). by injection H as <- _.
  - apply bind_ok in H as (y&_&H). destruct (s_trees st !! y.1) as [[]|]; [|done]. apply bind_ok in H as (q&_&H). by injection H as <- _.
  - apply bind_ok in H as (y&_&H). apply bind_ok in H as ([]&_&H). apply bind_ok in H as ([]&_&H). apply bind_ok in H as ([]&_&H).
    destruct (s_trees st !! y.1) as [[]|]; [|done]. by injection H as <- _.
  - apply bind_ok in H as (y&_&H). apply bind_ok in H as ([]&_&H). apply bind_ok in H as ([]&_&H). by injection H as <- _.
  - apply bind_ok in H as (y&_&H). apply bind_ok in H as (l&_&H). by injection H as <- _.
  - apply bind_ok in H as (y&_&H). apply bind_ok in H as ([]&_&H). apply bind_ok in H as ([]&_&H). apply bind_ok in H as ([]&_&H).
    apply bind_ok in H as ([]&_&H). by injection H as <- _.
  - apply bind_ok in H as (y&_&H). apply bind_ok in H as ([]&_&H). destruct (mapM _ els); [|done].
    apply bind_ok in H as ([]&_&H). apply bind_ok in H as ([]&_&H). by injection H as <- _.
  - apply bind_ok in H as (y&_&H). apply bind_ok in H as ([]&_&H). apply bind_ok in H as (z&_&H). apply bind_ok in H as ([]&_&H). by injection H as <- _.
  - apply bind_ok in H as (y&_&H). apply bind_ok in H as ([]&_&H). destruct (_ !! i); [|done]. by injection H as <- _.
  - apply bind_ok in H as (y&_&H). by injection H as <- _.
Qed.
Lemma run_leaked prog st st' os : forallb (fun o => negb (advances o)) prog = true -> s_run prog st = SOk (st', os) -> s_leaked st' = s_leaked st.
Proof.
  revert st os. induction prog as [|o prog IH]; intros st os Hp H; simpl in *; [by injection H as <- <-|]. apply andb_prop in Hp as [Ho Hp].
  apply bind_ok in H as ([st1 x]&H1&H). apply bind_ok in H as ([st2 xs]&H2&H). injection H as <- <-. rewrite (IH _ _ Hp H2).
  eapply step_leaked; [|exact H1]. by destruct (advances o).
Qed.
