(** * Facts about the client specification machine *)
From Verif Require Export ForestFacts.

(** every handle stands for an element *)
Definition wf_handle (st : sst) (h : nat * pos) : Prop :=
  exists m t, s_trees st !! h.1 = Some (m, t) /\ is_Some (tsub t h.2).
(** proof device, no counterpart in the code *)
Definition wf_st (st : sst) : Prop := forall s h, s_handles st !! s = Some (Some h) -> wf_handle st h.

(** ** Which calls Rust's types and borrow rules allow *)
(** proof device, no counterpart in the code *)
Definition elem_at (st : sst) (s : nat) : option tree :=
  match s_handles st !! s with
  | Some (Some h) => match s_trees st !! h.1 with Some (_, t) => tsub t h.2 | None => None end
  | _ => None
  end.
(** proof device, no counterpart in the code *)
Definition full (st : sst) (s : nat) : Prop := exists h, s_handles st !! s = Some (Some h).
(** proof device, no counterpart in the code *)
Definition holds_node (st : sst) (s : nat) : Prop := exists h, s_handles st !! s = Some (Some h) /\ (is_node <$> elem_at st s) = Some true.
(** proof device, no counterpart in the code *)
Definition gfull (st : sst) (g : nat) : Prop := exists t, s_greens st !! g = Some (Some t).
(** proof device, no counterpart in the code *)
Definition nav_on_node (n : nav) : bool :=
  match n with NParent | NNextSiblingOrToken | NPrevSiblingOrToken | NNextSiblingOrTokenByKind _ => false | _ => true end.
(** proof device, no counterpart in the code *)
Definition typed (o : op) (st : sst) : Prop :=
  match o with
  | OGreenToken _ s => (blen s <= u32_max)%N
  | OGreenNode _ els => Forall (gfull st) els
  | OGreenDrop g | OGreenLook g => gfull st g
  | ORoot _ g => exists k cs, s_greens st !! g = Some (Some (Node k cs))
  | OGreen s | OClone s | ODrop s | ODetach s | OLook s => full st s
  | ONav n s => if nav_on_node n then holds_node st s else full st s
  | OToNext tok s => if tok then full st s else holds_node st s
  | OCloneForUpdate s | OCloneSubtree s | ODetachKids _ s | ODetachByKind _ _ s => holds_node st s
  | OAtRange a b s => holds_node st s /\ (a <= b)%N
  | OGreenSplice _ _ els g => (exists k cs, s_greens st !! g = Some (Some (Node k cs))) /\ Forall (gfull st) els
  | OGreenReplace _ e g => (exists k cs, s_greens st !! g = Some (Some (Node k cs))) /\ gfull st e
  | OGreenChild _ g => exists k cs, s_greens st !! g = Some (Some (Node k cs))
  | OSplice s _ _ ins => holds_node st s /\ NoDup ins /\ s ∉ ins /\ Forall (full st) ins
  end.

Lemma elem_at_eq st s n p m t : s_handles st !! s = Some (Some (n, p)) -> s_trees st !! n = Some (m, t) -> elem_at st s = tsub t p.
Proof. intros H1 H2. unfold elem_at. rewrite H1. simpl. by rewrite H2. Qed.
Lemma s_elem_wf st h : wf_handle st h -> exists m t x, s_trees st !! h.1 = Some (m, t) /\ tsub t h.2 = Some x /\ s_elem st h = SOk (m, x).
Proof. intros (m&t&Ht&[x Hx]). exists m, t, x. unfold s_elem. by rewrite Ht, Hx. Qed.

(** [st'] has the elements of [st]: nothing has become another kind or a token *)
Definition keeps (st st' : sst) : Prop :=
  forall s h, s_handles st !! s = Some (Some h) ->
    full st' s /\ (is_node <$> elem_at st' s) = (is_node <$> elem_at st s) /\
    (tkind <$> elem_at st' s) = (tkind <$> elem_at st s).
Lemma move_lookup f l s : move_handles f l !! s = fmap f <$> l !! s.
Proof. unfold move_handles. by rewrite list_lookup_fmap. Qed.

Lemma tkind_tdelete y r i : tkind (tdelete_child y r i) = tkind y /\ is_node (tdelete_child y r i) = is_node y.
Proof.
  unfold tdelete_child. destruct (tsub y r) as [[k cs|]|] eqn:E; [|done|done].
  destruct r; simpl in *; [by injection E as ->|]. by destruct y.
Qed.
Lemma tkind_tinsert y r i z : tkind (tinsert_child y r i z) = tkind y /\ is_node (tinsert_child y r i z) = is_node y.
Proof.
  unfold tinsert_child. destruct (tsub y r) as [[k cs|]|] eqn:E; [|done|done].
  destruct r; simpl in *; [by injection E as ->|]. by destruct y.
Qed.

(** ** Detaching *)
(** proof device, no counterpart in the code *)
Definition after_detach (n : nat) (p : pos) (i : nat) (t x : tree) (st : sst) : sst :=
  SS (<[n:=(true, tdelete_child t p i)]> (s_trees st) ++ [(true, x)])
     (move_handles (detach_handle n (length (s_trees st)) p i) (s_handles st)) (s_greens st) (s_leaked st).
Lemma s_detach_eq n p i t x st :
  s_trees st !! n = Some (true, t) -> tsub t (p ++ [i]) = Some x -> s_detach (@pair nat pos n (p ++ [i])) st = SOk (after_detach n p i t x st).
Proof. intros Ht Hx. unfold s_detach. simpl. rewrite Ht. simpl. rewrite last_snoc, removelast_last. by rewrite Hx. Qed.
Lemma s_detach_root n t st : s_trees st !! n = Some (true, t) -> s_detach (@pair nat pos n []) st = SOk st.
Proof. intros Ht. unfold s_detach. simpl. by rewrite Ht. Qed.
Lemma s_detach_imm n p t st : s_trees st !! n = Some (false, t) -> s_detach (n, p) st = SPanic.
Proof. intros Ht. unfold s_detach. simpl. by rewrite Ht. Qed.

(** what becomes of a handle *)
Lemma after_detach_other n p i t x st n2 q m2 t2 :
  n2 <> n -> s_trees st !! n2 = Some (m2, t2) ->
  detach_handle n (length (s_trees st)) p i (n2, q) = (n2, q) /\ s_trees (after_detach n p i t x st) !! n2 = Some (m2, t2).
Proof.
  intros Hne H2. unfold detach_handle. simpl. destruct (Nat.eqb_spec n2 n); [done|]. split; [done|].
  rewrite lookup_app_l by (rewrite insert_length; by eapply lookup_lt_Some). by rewrite list_lookup_insert_ne.
Qed.
Lemma after_detach_same n p i t x st q y :
  s_trees st !! n = Some (true, t) -> tsub t (p ++ [i]) = Some x -> tsub t q = Some y ->
  match pos_removed p i q with
  | inl u => detach_handle n (length (s_trees st)) p i (n, q) = (length (s_trees st), u) /\
             s_trees (after_detach n p i t x st) !! length (s_trees st) = Some (true, x) /\ tsub x u = Some y
  | inr u => detach_handle n (length (s_trees st)) p i (n, q) = (n, u) /\
             s_trees (after_detach n p i t x st) !! n = Some (true, tdelete_child t p i) /\
             tsub (tdelete_child t p i) u = Some (match strip q p with Some r => tdelete_child y r i | None => y end)
  end.
Proof.
  intros Hn Hx Hy. pose proof (tsub_removed _ _ _ _ _ _ Hx Hy) as H. unfold detach_handle. simpl. rewrite Nat.eqb_refl.
  destruct (pos_removed p i q) as [u|u]; split_and!; try done.
  - rewrite lookup_app_r by (rewrite insert_length; lia). by rewrite insert_length, Nat.sub_diag.
  - by destruct H.
  - assert (n < length (s_trees st)) by (by eapply lookup_lt_Some).
    rewrite lookup_app_l by (rewrite insert_length; lia). by rewrite list_lookup_insert.
Qed.
Lemma after_detach_wf n p i t x st :
  s_trees st !! n = Some (true, t) -> tsub t (p ++ [i]) = Some x -> wf_st st ->
  wf_st (after_detach n p i t x st) /\ keeps st (after_detach n p i t x st).
Proof.
  intros Hn Hx Hwf.
  assert (K : forall s n2 q, s_handles st !! s = Some (Some (n2, q)) ->
    exists n' q' m2 t2 y m' t' y', s_handles (after_detach n p i t x st) !! s = Some (Some (n', q')) /\
      s_trees st !! n2 = Some (m2, t2) /\ tsub t2 q = Some y /\
      s_trees (after_detach n p i t x st) !! n' = Some (m', t') /\ tsub t' q' = Some y' /\
      is_node y' = is_node y /\ tkind y' = tkind y).
  { intros s n2 q Hs. destruct (Hwf s _ Hs) as (m2&t2&H2&[y Hy]). simpl in *.
    destruct (Nat.eq_dec n2 n) as [->|Hne].
    - rewrite Hn in H2. injection H2 as <- <-. pose proof (after_detach_same _ _ _ _ _ _ _ _ Hn Hx Hy) as E.
      destruct (pos_removed p i q) as [u|u]; destruct E as (E1&E2&E3).
      + exists (length (s_trees st)), u, true, t, y, true, x, y. split_and!; try done.
        unfold after_detach. simpl. rewrite move_lookup, Hs. simpl. by rewrite E1.
      + eexists n, u, true, t, y, true, _, _. split_and!; [|done|done|exact E2|exact E3| |].
        * unfold after_detach. simpl. rewrite move_lookup, Hs. simpl. by rewrite E1.
        * destruct (strip q p); [apply tkind_tdelete|done].
        * destruct (strip q p); [apply tkind_tdelete|done].
    - destruct (after_detach_other n p i t x st n2 q m2 t2 Hne H2) as [E1 E2].
      exists n2, q, m2, t2, y, m2, t2, y. split_and!; try done. unfold after_detach. simpl. rewrite move_lookup, Hs. simpl. by rewrite E1. }
  split.
  - intros s h Hs. assert (exists h0, s_handles st !! s = Some (Some h0)) as [[n2 q] Hs0].
    { unfold after_detach in Hs. simpl in Hs. rewrite move_lookup in Hs. destruct (s_handles st !! s) as [[h0|]|]; [eauto|done|done]. }
    destruct (K s n2 q Hs0) as (n'&q'&m2&t2&y&m'&t'&y'&E1&E2&E3&E4&E5&_). rewrite Hs in E1. injection E1 as ->.
    exists m', t'. split; [done|]. simpl. by rewrite E5.
  - intros s [n2 q] Hs. destruct (K s n2 q Hs) as (n'&q'&m2&t2&y&m'&t'&y'&E1&E2&E3&E4&E5&E6&E7).
    rewrite (elem_at_eq _ _ _ _ _ _ E1 E4), (elem_at_eq _ _ _ _ _ _ Hs E2), E3, E5. simpl. rewrite E6, E7. split; [by eexists|done].
Qed.

(** ** Attaching *)
(** proof device, no counterpart in the code *)
Definition after_attach (n : nat) (p : pos) (i c : nat) (m : bool) (t tc : tree) (st : sst) : sst :=
  SS (<[n:=(m, tinsert_child t p i tc)]> (s_trees st)) (move_handles (attach_handle n c p i) (s_handles st))
     (s_greens st) (s_leaked st).
Lemma s_attach_root_eq n p i c st m t mc tc k cs :
  n <> c -> s_trees st !! n = Some (m, t) -> s_trees st !! c = Some (mc, tc) -> tsub t p = Some (Node k cs) ->
  s_attach_root n p i c st =
  if (i <=? length cs) && (blen (ttext (tinsert_child t p i tc)) <=? u32_max)%N then SOk (after_attach n p i c m t tc st) else SPanic.
Proof.
  intros Hne Hn Hc Hp. unfold s_attach_root. rewrite Hn, Hc, Hp. destruct (Nat.eqb_spec n c); [done|].
  by destruct ((i <=? length cs) && _).
Qed.
(** a handle into another tree *)
Lemma after_attach_other n p i c m t tc st n2 q m2 t2 :
  n2 <> n -> n2 <> c -> s_trees st !! n2 = Some (m2, t2) ->
  attach_handle n c p i (n2, q) = (n2, q) /\ s_trees (after_attach n p i c m t tc st) !! n2 = Some (m2, t2).
Proof.
  intros H1 H2 H3. unfold attach_handle. simpl. destruct (Nat.eqb_spec n2 n), (Nat.eqb_spec n2 c); try done. split; [done|].
  by rewrite list_lookup_insert_ne.
Qed.
(** a handle into the tree attached to *)
Lemma after_attach_same n p i c m t tc st k cs q y :
  s_trees st !! n = Some (m, t) -> tsub t p = Some (Node k cs) -> i <= length cs -> tsub t q = Some y ->
  attach_handle n c p i (n, q) = (n, pos_inserted p i q) /\
  s_trees (after_attach n p i c m t tc st) !! n = Some (m, tinsert_child t p i tc) /\
  tsub (tinsert_child t p i tc) (pos_inserted p i q) = Some (match strip q p with Some r => tinsert_child y r i tc | None => y end).
Proof.
  intros Hn Hp Hi Hy. unfold attach_handle. simpl. rewrite Nat.eqb_refl. split_and!; [done| |by eapply tsub_inserted].
  rewrite list_lookup_insert; [done|by eapply lookup_lt_Some].
Qed.
(** a handle into the attached tree *)
Lemma after_attach_new n p i c m t tc st k cs q :
  n <> c -> s_trees st !! n = Some (m, t) -> tsub t p = Some (Node k cs) -> i <= length cs ->
  attach_handle n c p i (c, q) = (n, p ++ i :: q) /\
  s_trees (after_attach n p i c m t tc st) !! n = Some (m, tinsert_child t p i tc) /\
  tsub (tinsert_child t p i tc) (p ++ i :: q) = tsub tc q.
Proof.
  intros Hne Hn Hp Hi. unfold attach_handle. simpl. destruct (Nat.eqb_spec c n); [done|]. rewrite Nat.eqb_refl.
  split_and!; [done| |by eapply tsub_inserted_new].
  rewrite list_lookup_insert; [done|by eapply lookup_lt_Some].
Qed.
Lemma after_attach_wf n p i c m t mc tc st k cs :
  n <> c -> s_trees st !! n = Some (m, t) -> s_trees st !! c = Some (mc, tc) -> tsub t p = Some (Node k cs) -> i <= length cs -> wf_st st ->
  wf_st (after_attach n p i c m t tc st) /\ keeps st (after_attach n p i c m t tc st).
Proof.
  intros Hne Hn Hc Hp Hi Hwf.
  assert (K : forall s n2 q, s_handles st !! s = Some (Some (n2, q)) ->
    exists n' q' m2 t2 y m' t' y', s_handles (after_attach n p i c m t tc st) !! s = Some (Some (n', q')) /\
      s_trees st !! n2 = Some (m2, t2) /\ tsub t2 q = Some y /\
      s_trees (after_attach n p i c m t tc st) !! n' = Some (m', t') /\ tsub t' q' = Some y' /\
      is_node y' = is_node y /\ tkind y' = tkind y).
  { intros s n2 q Hs. destruct (Hwf s _ Hs) as (m2&t2&H2&[y Hy]). simpl in *.
    destruct (Nat.eq_dec n2 n) as [->|Hn2]; [|destruct (Nat.eq_dec n2 c) as [->|Hc2]].
    - rewrite Hn in H2. injection H2 as <- <-.
      destruct (after_attach_same n p i c m t tc st k cs q y Hn Hp Hi Hy) as (E1&E2&E3).
      eexists n, _, m, t, y, m, _, _. split_and!; [|done|done|exact E2|exact E3| |].
      + simpl. rewrite move_lookup, Hs. simpl. by rewrite E1.
      + destruct (strip q p); [apply tkind_tinsert|done].
      + destruct (strip q p); [apply tkind_tinsert|done].
    - rewrite Hc in H2. injection H2 as <- <-.
      destruct (after_attach_new n p i c m t tc st k cs q Hne Hn Hp Hi) as (E1&E2&E3). rewrite Hy in E3.
      eexists n, _, mc, tc, y, m, _, y. split_and!; [|done|done|exact E2|exact E3|done|done].
      simpl. rewrite move_lookup, Hs. simpl. by rewrite E1.
    - destruct (after_attach_other n p i c m t tc st n2 q m2 t2 Hn2 Hc2 H2) as [E1 E2].
      exists n2, q, m2, t2, y, m2, t2, y. split_and!; try done. simpl. rewrite move_lookup, Hs. simpl. by rewrite E1. }
  split.
  - intros s h Hs. assert (exists h0, s_handles st !! s = Some (Some h0)) as [[n2 q] Hs0].
    { simpl in Hs. rewrite move_lookup in Hs. destruct (s_handles st !! s) as [[h0|]|]; [eauto|done|done]. }
    destruct (K s n2 q Hs0) as (n'&q'&m2&t2&y&m'&t'&y'&E1&E2&E3&E4&E5&_). rewrite Hs in E1. injection E1 as ->.
    exists m', t'. split; [done|]. simpl. by rewrite E5.
  - intros s [n2 q] Hs. destruct (K s n2 q Hs) as (n'&q'&m2&t2&y&m'&t'&y'&E1&E2&E3&E4&E5&E6&E7).
    rewrite (elem_at_eq _ _ _ _ _ _ E1 E4), (elem_at_eq _ _ _ _ _ _ Hs E2), E3, E5. simpl. rewrite E6, E7. split; [by eexists|done].
Qed.

(** ** No call that is typed is ill, and handles stay valid *)
(** proof device, no counterpart in the code *)
Definition good {A} (T : Prop) (s : sres A) (Q : A -> Prop) : Prop :=
  match s with SOk a => Q a | SIll => ~ T | _ => True end.
Lemma good_bind {A B} (T : Prop) (s : sres A) (f : A -> sres B) Q R : good T s Q -> (forall a, Q a -> good T (f a) R) -> good T (s ≫= f) R.
Proof. destruct s; simpl; auto. Qed.
Lemma good_slot {A B} (T : Prop) (o : option (option A)) (f : A -> sres B) R :
  (T -> exists a, o = Some (Some a)) -> (forall a, o = Some (Some a) -> good T (f a) R) -> good T (of_slot o ≫= f) R.
Proof. intros H1 H2. destruct o as [[a|]|]; simpl; [by apply H2| |]; intros HT; by destruct (H1 HT). Qed.
Lemma good_ill {B} (T : Prop) (b : bool) (f : unit -> sres B) R : (T -> b = true) -> (b = true -> good T (f ()) R) -> good T (ill_unless b ≫= f) R.
Proof. intros H1 H2. destruct b; simpl; [by apply H2|]. intros HT. by specialize (H1 HT). Qed.
Lemma good_panic {B} (T : Prop) (b : bool) (f : unit -> sres B) R : (b = true -> good T (f ()) R) -> good T (panic_unless b ≫= f) R.
Proof. intros H2. destruct b; simpl; [by apply H2|done]. Qed.
Lemma good_elem {B} (T : Prop) st h (f : bool * tree -> sres B) R :
  wf_handle st h -> (forall m t x, s_trees st !! h.1 = Some (m, t) -> tsub t h.2 = Some x -> good T (f (m, x)) R) -> good T (s_elem st h ≫= f) R.
Proof. intros Hw H. destruct (s_elem_wf st h Hw) as (m&t&x&E1&E2&->). simpl. by eapply H. Qed.
Lemma good_mono {A} (T T' : Prop) (s : sres A) (Q R : A -> Prop) : good T s Q -> (T' -> T) -> (forall a, Q a -> R a) -> good T' s R.
Proof. destruct s; simpl; auto. Qed.

Lemma good_detach (T : Prop) h st : wf_handle st h -> wf_st st -> good T (s_detach h st) (fun st' => wf_st st' /\ keeps st st' /\
  forall m t, s_trees st !! h.1 = Some (m, t) -> length (s_trees st) <= length (s_trees st') /\ m = true /\
  (forall s, s_handles st !! s = Some (Some h) -> exists n' t', s_handles st' !! s = Some (Some (n', [])) /\ s_trees st' !! n' = Some (true, t'))).
Proof.
  destruct h as [n p]. intros (m&t&Ht&[x Hx]) Hwf. simpl in *. destruct m; [|by rewrite (s_detach_imm _ _ _ _ Ht)].
  destruct p as [|i p _] using rev_ind.
  - rewrite (s_detach_root _ _ _ Ht). simpl. split_and!; [done| |].
    + intros s h Hs. split_and!; [by eexists|done|done].
    + intros m t' Ht'. rewrite Ht in Ht'. injection Ht' as <- <-. split_and!; [done|done|]. eauto.
  - rewrite (s_detach_eq _ _ _ _ _ _ Ht Hx). simpl. destruct (after_detach_wf n p i t x st Ht Hx Hwf) as [H1 H2]. split_and!; [done|done|].
    intros m t' Ht'. rewrite Ht in Ht'. injection Ht' as <- <-. split_and!; [|done|].
    + rewrite app_length, insert_length. simpl. lia.
    + intros s Hs. exists (length (s_trees st)), x.
      pose proof (after_detach_same n p i t x st (p ++ [i]) x Ht Hx Hx) as E. rewrite pos_removed_child, Nat.eqb_refl in E.
      destruct E as (E1&E2&E3). split; [|done]. rewrite move_lookup, Hs. simpl. by rewrite E1.
Qed.
Lemma keeps_trans a b c : keeps a b -> keeps b c -> keeps a c.
Proof.
  intros H1 H2 s h Hs. destruct (H1 s h Hs) as ([h' Hs']&E1&E2). destruct (H2 s h' Hs') as (E3&E4&E5). split_and!; [done|congruence|congruence].
Qed.
Lemma keeps_refl a : keeps a a.
Proof. intros s h Hs. split_and!; [by eexists|done|done]. Qed.
Lemma keeps_node a b s : keeps a b -> holds_node a s -> holds_node b s.
Proof. intros H (h&Hs&E). destruct (H s h Hs) as ([h' Hs']&E1&_). exists h'. split; [done|]. by rewrite E1. Qed.
Lemma keeps_full a b s : keeps a b -> full a s -> full b s.
Proof. intros H [h Hs]. by destruct (H s h Hs) as (?&_). Qed.
Lemma del_handle_wf c st : wf_st st -> wf_st (del_handle c st).
Proof.
  intros H s h Hs. simpl in Hs. destruct (Nat.eq_dec s c) as [->|].
  - destruct (decide (c < length (s_handles st))); [by rewrite list_lookup_insert in Hs|]. rewrite list_insert_ge in Hs by lia. by apply H in Hs.
  - rewrite list_lookup_insert_ne in Hs by done. by apply H in Hs.
Qed.
Lemma del_handle_lookup c st s : s <> c -> s_handles (del_handle c st) !! s = s_handles st !! s.
Proof. intros. simpl. by rewrite list_lookup_insert_ne. Qed.
Lemma del_handle_elem c st s : s <> c -> elem_at (del_handle c st) s = elem_at st s.
Proof. intros. unfold elem_at. by rewrite del_handle_lookup. Qed.

Lemma holds_node_elem st s n p m t x :
  s_handles st !! s = Some (Some (n, p)) -> s_trees st !! n = Some (m, t) -> tsub t p = Some x -> holds_node st s -> is_node x = true.
Proof. intros H1 H2 H3 (h&H4&H5). rewrite (elem_at_eq _ _ _ _ _ _ H1 H2), H3 in H5. simpl in H5. by injection H5. Qed.

Lemma good_attach (T : Prop) s i c st :
  wf_st st -> (T -> holds_node st s /\ full st c) -> holds_node st s -> s <> c ->
  good T (s_attach s i c st) (fun st' => wf_st st' /\ holds_node st' s /\ forall u, u <> c -> full st u -> full st' u).
Proof.
  intros Hwf HT Hnode Hsc. unfold s_attach. apply good_slot; [intros [(h&Hs&_) _]%HT; eauto|]. intros [n p] Hs.
  apply good_elem; [by eapply Hwf|]. intros m t x Ht Hx. apply good_panic. intros ->.
  apply good_slot; [intros [_ [h Hc]]%HT; eauto|]. intros hc Hc.
  eapply good_bind; [eapply good_detach; [by eapply Hwf|done]|]. intros st1 (Hwf1&Hk1&Hd).
  destruct (Hwf c hc Hc) as (mc&tc0&Htc0&_). destruct (Hd mc tc0 Htc0) as (_&_&Hd'). destruct (Hd' c Hc) as (nc&tc&Hc1&Htc). clear Hd Hd'.
  pose proof (keeps_node _ _ _ Hk1 Hnode) as Hnode1.
  apply good_slot; [destruct Hnode1 as (h&?&_); eauto|]. intros [n1 p1] Hs1.
  apply good_slot; [eauto|]. intros [nc' pc] Hc1'. pose proof (eq_trans (eq_sym Hc1') Hc1) as Hq. injection Hq as -> ->. simpl.
  destruct (Hwf1 s _ Hs1) as (m1&t1&Ht1&[x1 Hx1]). simpl in Ht1, Hx1.
  pose proof (holds_node_elem _ _ _ _ _ _ _ Hs1 Ht1 Hx1 Hnode1) as Hx1n. destruct x1 as [k1 cs1|]; [|done].
  destruct (Nat.eq_dec n1 nc) as [->|Hne].
  { unfold s_attach_root. rewrite Ht1. simpl. rewrite Hx1, Nat.eqb_refl. done. }
  rewrite (s_attach_root_eq n1 p1 i nc st1 _ _ _ _ _ _ Hne Ht1 Htc Hx1). destruct ((i <=? length cs1) && _) eqn:Ei; [|done].
  apply andb_prop in Ei as [Ei%Nat.leb_le _]. simpl.
  destruct (after_attach_wf n1 p1 i nc m1 t1 _ tc st1 k1 cs1 Hne Ht1 Htc Hx1 Ei Hwf1) as [H1 H2].
  split_and!.
  - by apply del_handle_wf.
  - pose proof (keeps_node _ _ _ H2 Hnode1) as (h2&H3&H4). exists h2. rewrite del_handle_lookup, del_handle_elem by done. done.
  - intros u Hu Hf. apply (keeps_full _ _ _ Hk1), (keeps_full _ _ _ H2) in Hf as [h2 H3]. exists h2. by rewrite del_handle_lookup.
Qed.
Lemma good_attach_all (T : Prop) s i ins st :
  wf_st st -> (T -> NoDup ins /\ s ∉ ins /\ Forall (full st) ins) -> holds_node st s ->
  good T (s_attach_all s i ins st) wf_st.
Proof.
  revert i st. induction ins as [|c ins IH]; intros i st Hwf HT Hn; simpl; [done|].
  apply good_ill. { intros (_&Hs&_)%HT. apply not_elem_of_cons in Hs as [Hs _]. destruct (Nat.eqb_spec c s); [by subst|done]. }
  intros Hcs. destruct (Nat.eqb_spec c s) as [|Hne]; [done|].
  eapply good_bind; [eapply (good_attach T); [done| |done|done]|].
  - intros (_&_&Hf)%HT. apply Forall_cons in Hf as [? _]. done.
  - intros st1 (Hwf1&Hn1&Hk). apply IH; [done| |done]. intros (Hnd&Hs&Hf)%HT. apply NoDup_cons in Hnd as [Hc Hnd].
    apply not_elem_of_cons in Hs as [_ Hs]. apply Forall_cons in Hf as [_ Hf]. split_and!; [done|done|].
    apply Forall_forall. intros u Hu. apply Hk; [by intros ->|]. by eapply Forall_forall.
Qed.
Lemma first_at_lt {A} (P : A -> bool) (l : list A) lo j : first_at P l lo = Some j -> exists x, l !! j = Some x /\ P x = true /\ lo <= j.
Proof. intros H. pose proof (first_at_is P l lo) as K. rewrite H in K. destruct K as (?&(x&?&?)&_). eauto. Qed.
Lemma wf_node_handle st s h : s_handles st !! s = Some (Some h) -> holds_node st s -> wf_st st ->
  exists m t k cs, s_trees st !! h.1 = Some (m, t) /\ tsub t h.2 = Some (Node k cs).
Proof.
  intros Hs Hn Hwf. destruct (Hwf s h Hs) as (m&t&Ht&[x Hx]). destruct h as [n p]. pose proof (holds_node_elem _ _ _ _ _ _ _ Hs Ht Hx Hn).
  destruct x; [|done]. eauto 6.
Qed.
Lemma wf_kid st h m t k cs j x : s_trees st !! h.1 = Some (m, t) -> tsub t h.2 = Some (Node k cs) -> cs !! j = Some x ->
  wf_handle st (h.1, h.2 ++ [j]).
Proof. intros Ht Hp Hj. exists m, t. split; [done|]. simpl. rewrite tsub_app, Hp. simpl. rewrite Hj. by eexists. Qed.
Lemma good_splice (T : Prop) s a b ins st :
  wf_st st -> (T -> typed (OSplice s a b ins) st) -> good T (s_splice s a b ins st) wf_st.
Proof.
  intros Hwf HT. unfold s_splice. apply good_slot; [intros ((h&?&_)&_)%HT; eauto|]. intros h Hs.
  apply good_elem; [by eapply Hwf|]. intros m t x Ht Hx. apply good_ill.
  { intros (Hn&_&_&Hf)%HT. apply andb_true_intro. split; [by destruct h; eapply holds_node_elem|].
    apply forallb_forall. intros c Hc%elem_of_list_In. rewrite Forall_forall in Hf. destruct (Hf c Hc) as [hc E]. rewrite E. apply bool_decide_eq_true. by eexists. }
  intros [Hxn Hfull]%andb_prop. destruct x as [k cs|]; [|done].
  assert (Hn : holds_node st s). { exists h. split; [done|]. destruct h. rewrite (elem_at_eq _ _ _ _ _ _ Hs Ht). simpl in Hx. by rewrite Hx. }
  apply good_panic. intros ->.
  eapply (good_bind _ _ _ (fun st' => wf_st st' /\ keeps st st')).
  { destruct (_ && _) eqn:E; [|split; [done|apply keeps_refl]]. apply andb_prop in E as [_ E%Nat.ltb_lt]. simpl in E.
    destruct (lookup_lt_is_Some_2 cs a E) as [y Hy].
    eapply good_mono; [eapply good_detach; [by eapply wf_kid|done]|exact (fun u : T => u)|]. intros st' (?&?&_). done. }
  intros st1 [Hwf1 Hk]. apply good_attach_all; [done| |by eapply keeps_node].
  intros (_&H1&H2&H3)%HT. split_and!; [done|done|]. eapply Forall_impl; [exact H3|]. intros u. by apply keeps_full.
Qed.
(** a detached child does not move its parent *)
Lemma detach_first_parent n p j t st x :
  s_trees st !! n = Some (true, t) -> tsub t (p ++ [j]) = Some x ->
  s_trees (after_detach n p j t x st) !! n = Some (true, tdelete_child t p j).
Proof.
  intros Ht Hx. pose proof (after_detach_same n p j t x st [] t Ht Hx eq_refl) as E.
  assert (Hr : exists u, pos_removed p j [] = inr u). { unfold pos_removed. destruct p; simpl; eauto. }
  destruct Hr as [u Hr]. rewrite Hr in E. by destruct E as (_&E&_).
Qed.
Lemma tdelete_node t p j k cs : tsub t p = Some (Node k cs) -> tsub (tdelete_child t p j) p = Some (Node k (take j cs ++ drop (S j) cs)).
Proof. intros Hp. rewrite (tdelete_eq _ _ _ _ _ Hp). by rewrite (treplace_sub _ _ _ _ Hp). Qed.
Lemma good_detach_first (T : Prop) f n p st m t k cs :
  wf_st st -> s_trees st !! n = Some (m, t) -> tsub t p = Some (Node k cs) ->
  good T (s_detach_first f (@pair nat pos n p) st) (fun o =>
    match first_at f cs 0 with
    | None => o = None
    | Some j => exists st', o = Some st' /\ m = true /\ wf_st st' /\ keeps st st' /\ s_trees st' !! n = Some (true, tdelete_child t p j)
    end).
Proof.
  intros Hwf Ht Hp. unfold s_detach_first. unfold s_elem. simpl. rewrite Ht, Hp. simpl.
  destruct (first_at f cs 0) as [j|] eqn:E; [|done]. destruct (first_at_lt _ _ _ _ E) as (x&Hj&_&_).
  destruct m; [|rewrite (s_detach_imm _ _ _ _ Ht); done].
  assert (Hx : tsub t (p ++ [j]) = Some x). { rewrite tsub_app, Hp. simpl. by rewrite Hj. }
  change (s_detach (n, p ++ [j]) st) with (s_detach (@pair nat pos n (p ++ [j])) st). rewrite (s_detach_eq _ _ _ _ _ _ Ht Hx). simpl. destruct (after_detach_wf _ _ _ _ _ _ Ht Hx Hwf) as [H1 H2].
  eexists. split_and!; [done|done|done|done|]. by apply detach_first_parent.
Qed.
Lemma good_detach_all (T : Prop) f fuel n p st m t k cs :
  wf_st st -> s_trees st !! n = Some (m, t) -> tsub t p = Some (Node k cs) ->
  good T (s_detach_all fuel f (@pair nat pos n p) st) wf_st.
Proof.
  revert st m t cs. induction fuel as [|fuel IH]; intros st m t cs Hwf Ht Hp; [done|]. simpl.
  eapply good_bind; [by apply (good_detach_first T f n p st m t k cs)|]. intros o Ho. destruct (first_at f cs 0) as [j|].
  - destruct Ho as (st'&->&->&Hwf'&_&Ht'). eapply IH; [done|exact Ht'|]. by apply tdelete_node.
  - by subst o.
Qed.

Lemma add_handle_wf st o : wf_st st -> (forall h, o = Some h -> wf_handle st h) -> wf_st (add_handle o st).
Proof.
  intros Hwf Ho s h Hs. simpl in Hs. apply lookup_app_Some in Hs as [Hs|[_ Hs]]; [by apply Hwf in Hs|].
  destruct (s - length (s_handles st)); [|done]. simpl in Hs. injection Hs as ->. by apply Ho.
Qed.
Lemma add_tree_wf m t st : wf_st st -> wf_st (add_tree m t st).
Proof.
  intros Hwf s h Hs. destruct (Hwf s h Hs) as (m'&t'&Ht&Hx). exists m', t'. split; [|done]. simpl. by apply lookup_app_l_Some.
Qed.
Lemma same_handles_wf st G L : wf_st st -> wf_st (SS (s_trees st) (s_handles st) G L).
Proof. done. Qed.

Lemma down_valid t p f q : down t p f = SOk (Some q) -> (forall cs i, f cs = Some i -> is_Some (cs !! i)) -> is_Some (tsub t q).
Proof.
  unfold down. destruct (tsub t p) as [[k cs|]|] eqn:E; try done. destruct (f cs) as [i|] eqn:Ef; [|done]. intros [= <-] H.
  rewrite tsub_app, E. simpl. destruct (H _ _ Ef) as [c ->]. by eexists.
Qed.
Lemma sideways_valid t p f q : sideways t p f = Some q -> (forall cs i j, f cs i = Some j -> is_Some (cs !! j)) -> is_Some (tsub t q).
Proof.
  unfold sideways. destruct (last p) as [i|]; [|done]. destruct (tsub t (removelast p)) as [x|] eqn:E; [|done].
  destruct (f (tchildren x) i) as [j|] eqn:Ef; [|done]. intros [= <-] H. rewrite tsub_app, E. destruct (H _ _ _ Ef) as [c Hc].
  destruct x as [k cs|]; simpl in *; [|done]. rewrite Hc. by eexists.
Qed.
Lemma sel_go_lookup {A} (P : A -> bool) i l j : j ∈ sel_go P i l -> i <= j /\ is_Some (l !! (j - i)).
Proof.
  revert i. induction l as [|x l IH]; intros i Hj; simpl in *; [by apply elem_of_nil in Hj|].
  assert (Hr : j ∈ sel_go P (S i) l -> i <= j /\ is_Some ((x :: l) !! (j - i))).
  { intros [H1 H2]%IH. split; [lia|]. replace (j - i) with (S (j - S i)) by lia. done. }
  destruct (P x); [|auto]. apply elem_of_cons in Hj as [->|Hj]; [|auto]. split; [lia|]. rewrite Nat.sub_diag. by eexists.
Qed.
Lemma first_at_valid {A} (P : A -> bool) (l : list A) lo j : first_at P l lo = Some j -> is_Some (l !! j).
Proof. intros (x&H&_)%first_at_lt. by eexists. Qed.
Lemma last_at_valid {A} (P : A -> bool) (l : list A) hi j : last_at P l hi = Some j -> is_Some (l !! j).
Proof.
  unfold last_at, sel_below. intros H. assert (Hj : j ∈ sel_go P 0 (take hi l)).
  { rewrite elem_of_list_In, in_rev, <- elem_of_list_In. destruct (rev (sel_go P 0 (take hi l))); [done|]. injection H as ->. left. }
  apply sel_go_lookup in Hj as [_ [x Hx]]. rewrite Nat.sub_0_r in Hx. exists x. by apply lookup_take_Some in Hx as [? _].
Qed.
Lemma s_nav_valid n t p q : is_Some (tsub t p) -> s_nav n t p = SOk (Some q) -> is_Some (tsub t q).
Proof.
  intros Hp H. assert (Hfor : forall o, for_node t p o = SOk (Some q) -> o = Some q).
  { intros o. unfold for_node. destruct (tsub t p) as [[]|]; try done. by intros [= ->]. }
  destruct n; simpl in H;
    try (eapply down_valid; [exact H|]; intros cs i Hi; first [exact (first_at_valid _ _ _ _ Hi)|exact (last_at_valid _ _ _ _ Hi)]);
    try (apply Hfor in H; eapply sideways_valid; [exact H|]; intros cs i j Hi; first [exact (first_at_valid _ _ _ _ Hi)|exact (last_at_valid _ _ _ _ Hi)]);
    try (injection H as H; eapply sideways_valid; [exact H|]; intros cs i j Hi; first [exact (first_at_valid _ _ _ _ Hi)|exact (last_at_valid _ _ _ _ Hi)]).
  destruct p as [|i p] using rev_ind; [done|]. rewrite removelast_last in H. destruct (p ++ [i]) eqn:E; [by destruct p|].
  injection H as <-. rewrite <- E in Hp. destruct Hp as [x Hx]. apply tsub_snoc_node in Hx as (?&?&->&_). by eexists.
Qed.
Lemma s_nav_typed n t p x : tsub t p = Some x -> (nav_on_node n = true -> is_node x = true) -> exists o, s_nav n t p = SOk o.
Proof.
  intros Hp Hn. destruct n; simpl in *; unfold down, for_node; rewrite ?Hp; try (destruct x; [|by specialize (Hn eq_refl)]); eauto.
Qed.
Lemma mapM_greens st els : Forall (gfull st) els -> exists ts, mapM (fun g => mjoin (s_greens st !! g)) els = Some ts.
Proof.
  intros H. apply (mapM_is_Some (fun g => mjoin (s_greens st !! g))). eapply Forall_impl; [exact H|]. intros g [t E]. simpl. rewrite E. by eexists.
Qed.
Lemma last_elem {A} (l : list A) x : last l = Some x -> x ∈ l.
Proof. intros H. rewrite last_lookup in H. by eapply elem_of_list_lookup_2. Qed.
Lemma at_range_lt cs a b i : at_range cs a b = Some i -> i < length cs.
Proof.
  unfold at_range. set (js := List.filter _ (seq 0 (length cs))). intros H. assert (Hi : In i js).
  { destruct (last _) as [j|] eqn:E.
    - injection H as ->. apply last_elem, elem_of_list_In, filter_In in E. apply E.
    - destruct js; [done|]. injection H as ->. by left. }
  apply filter_In in Hi as [Hi%in_seq _]. lia.
Qed.
Theorem typed_step o st : wf_st st -> good (typed o st) (s_step o st) (fun r => wf_st r.1).
Proof.
  intros Hwf. destruct o as [k s|k els|g|m g|s|s|s|n s|tok s|s|s|s|s a b ins|tok s|tok m s|s|a b s|a b els g|i e g|i g|g]; simpl.
  - apply good_ill; [by intros; apply N.leb_le|]. intros _. done.
  - destruct (mapM _ els) as [ts|] eqn:E; [by apply good_panic|]. intros [ts E']%mapM_greens. congruence.
  - apply good_slot; [done|]. done.
  - apply good_slot; [intros (k&cs&?); eauto|]. intros t Ht. apply good_ill.
    { intros (k&cs&E). rewrite Ht in E. by injection E as ->. }
    intros _. simpl. apply add_handle_wf; [by apply add_tree_wf|]. intros h [= <-]. exists m, t. simpl.
    rewrite lookup_app_r, Nat.sub_diag by lia. split; [done|by eexists].
  - apply good_slot; [done|]. intros h Hs. apply good_elem; [by eapply Hwf|]. done.
  - apply good_slot; [done|]. intros h Hs. apply add_handle_wf; [done|]. intros h' [= <-]. by eapply Hwf.
  - apply good_slot; [done|]. intros h Hs. simpl. by apply del_handle_wf.
  - apply good_slot; [destruct (nav_on_node n); [intros (h&?&_); eauto|done]|]. intros [nt p] Hs.
    destruct (Hwf s _ Hs) as (m&t&Ht&[x Hx]). simpl in *. rewrite Ht.
    destruct (s_nav n t p) as [o| | |] eqn:E; simpl; try done.
    + apply add_handle_wf; [done|]. intros h Hh. destruct o as [q|]; [|done]. injection Hh as <-. exists m, t. split; [done|].
      eapply s_nav_valid; [|exact E]. by eexists.
    + intros HT. destruct (s_nav_typed n t p x Hx) as [o E']; [|congruence]. intros Hnn. rewrite Hnn in HT. by eapply holds_node_elem.
  - apply good_slot; [destruct tok; [done|intros (h&?&_); eauto]|]. intros [nt p] Hs.
    destruct (Hwf s _ Hs) as (m&t&Ht&[x Hx]). simpl in *. rewrite Ht.
    destruct (s_nav _ t p) as [o| | |] eqn:E; simpl; try done.
    + assert (Hw : wf_st (add_handle (pair nt <$> o) (del_handle s st))).
      { apply add_handle_wf; [by apply del_handle_wf|]. intros h Hh. destruct o as [q|]; [|done]. injection Hh as <-. exists m, t. split; [done|].
        eapply s_nav_valid; [|exact E]. by eexists. }
      destruct (negb m && _ && _); [exact Hw|exact Hw].
    + intros HT. destruct (s_nav_typed (if tok then NNextSiblingOrToken else NNextSibling) t p x Hx) as [o E'].
      * intros Hnn. destruct tok; [done|]. by eapply holds_node_elem.
      * rewrite E in E'. done.
  - apply good_slot; [intros (h&?&_); eauto|]. intros [nt p] Hs. apply good_elem; [by eapply Hwf|]. intros m t x Ht Hx. simpl in *.
    apply good_ill; [by eapply holds_node_elem|]. intros _. apply good_panic. intros _. rewrite Ht. simpl.
    apply add_handle_wf; [by apply add_tree_wf|]. intros h [= <-]. exists true, t. simpl.
    rewrite lookup_app_r, Nat.sub_diag by lia. split; [done|by eexists].
  - apply good_slot; [intros (h&?&_); eauto|]. intros [nt p] Hs. apply good_elem; [by eapply Hwf|]. intros m t x Ht Hx. simpl in *.
    apply good_ill; [by eapply holds_node_elem|]. intros _. simpl.
    apply add_handle_wf; [by apply add_tree_wf|]. intros h [= <-]. exists false, x. simpl.
    rewrite lookup_app_r, Nat.sub_diag by lia. split; [done|by eexists].
  - apply good_slot; [done|]. intros h Hs. eapply good_bind; [eapply good_detach; [by eapply Hwf|done]|]. intros st' [? _]. done.
  - eapply good_bind; [by apply good_splice|]. done.
  - eapply good_bind; [|intros st' H; exact H]. unfold s_detach_kids. apply good_slot; [intros (h&?&_); eauto|]. intros [n p] Hs.
    destruct (Hwf s _ Hs) as (m&t&Ht&[x Hx]). simpl in *. destruct x as [k cs|k u].
    + eapply good_bind; [by apply (good_detach_first _ _ n p st m t k cs)|]. intros o Ho. simpl. destruct (first_at _ cs 0); [|by subst o].
      by destruct Ho as (st'&->&_&?&_).
    + unfold s_detach_first, s_elem. simpl. rewrite Ht, Hx. simpl. intros Hn. by pose proof (holds_node_elem _ _ _ _ _ _ _ Hs Ht Hx Hn).
  - eapply good_bind; [|intros st' H; exact H]. unfold s_detach_by_kind. apply good_slot; [intros (h&?&_); eauto|]. intros [n p] Hs.
    destruct (Hwf s _ Hs) as (mm&t&Ht&[x Hx]). simpl in *. unfold s_elem. simpl. rewrite Ht, Hx. simpl. destruct x as [k cs|k u].
    + by apply (good_detach_all (holds_node st s) (kid_sel_kind tok m) (S (length cs)) n p st mm t k cs).
    + simpl. unfold s_detach_first, s_elem. simpl. rewrite Ht, Hx. simpl. intros Hn. by pose proof (holds_node_elem _ _ _ _ _ _ _ Hs Ht Hx Hn).
  - apply good_slot; [done|]. intros h Hs. unfold s_look. destruct (Hwf s h Hs) as (m&t&Ht&[x Hx]). unfold trange. rewrite Ht, Hx. done.
  - apply good_slot; [intros [(h&?&_) _]; eauto|]. intros [n p] Hs. apply good_elem; [by eapply Hwf|]. intros m t x Ht Hx. simpl in *.
    apply good_ill.
    { intros [Hn Hab]. apply andb_true_intro. split; [by eapply holds_node_elem|by apply N.leb_le]. }
    intros Hx'%andb_prop. unfold s_range, trange. cbn [fst snd]. rewrite Ht, Hx. cbn [mbind sres_bind]. apply good_panic. intros _.
    apply add_handle_wf; [done|]. intros h Hh. destruct (at_range _ _ _) as [i|] eqn:E; [|done]. injection Hh as <-. exists m, t. split; [done|].
    destruct x as [k cs|]; [|done]. cbn [snd tchildren] in *. rewrite tsub_app, Hx. simpl. apply at_range_lt in E. by destruct (lookup_lt_is_Some_2 cs i E) as [? ->].
  - apply good_slot; [intros [(k&cs&?) _]; eauto|]. intros t Ht. apply good_ill.
    { intros [(k&cs&E) _]. rewrite Ht in E. by injection E as ->. }
    intros _. destruct (mapM _ els) as [ts|] eqn:E; [apply good_panic; intros _; by apply good_panic|]. intros [_ [ts E']%mapM_greens]. congruence.
  - apply good_slot; [intros [(k&cs&?) _]; eauto|]. intros t Ht. apply good_ill.
    { intros [(k&cs&E) _]. rewrite Ht in E. by injection E as ->. }
    intros _. apply good_slot; [by intros [_ ?]|]. intros x Hx. by apply good_panic.
  - apply good_slot; [intros (k&cs&?); eauto|]. intros t Ht. apply good_ill.
    { intros (k&cs&E). rewrite Ht in E. by injection E as ->. }
    intros _. by destruct (tchildren t !! i).
  - by apply good_slot.
Qed.
Lemma wf_init : wf_st s_init.
Proof. by intros s h Hs. Qed.
Lemma s_run_wf prog st st' os : wf_st st -> s_run prog st = SOk (st', os) -> wf_st st'.
Proof.
  revert st os. induction prog as [|o prog IH]; intros st os Hwf H; simpl in H; [by injection H as <- <-|].
  pose proof (typed_step o st Hwf) as Hg. destruct (s_step o st) as [[st1 x]| | |]; simpl in *; try done.
  destruct (s_run prog st1) as [[st2 xs]| | |] eqn:E; simpl in *; try done. injection H as <- <-. by eapply IH.
Qed.
Lemma s_look_wf st s h : wf_st st -> s_handles st !! s = Some (Some h) -> exists l, s_look st h = SOk l.
Proof. intros Hwf Hs. unfold s_look. destruct (Hwf s h Hs) as (m&t&Ht&[x Hx]). unfold trange. rewrite Ht, Hx. eauto. Qed.

(** ** The exact effect of the loop over [by_kind] *)
(** proof device, no counterpart in the code *)
Definition matching_before (f : tree -> bool) (cs : list tree) (j : nat) : nat := length (List.filter f (take j cs)).
(** the handle [(n, p ++ j :: u)] after all children of [p] satisfying [f] have been
    detached in order, the first becoming tree number [new] *)
Definition kids_handle (f : tree -> bool) (cs : list tree) (n new : nat) (p : pos) (h : nat * pos) : nat * pos :=
  if h.1 =? n then
    match strip p h.2 with
    | Some (j :: u) =>
        match cs !! j with
        | Some c => if f c then (new + matching_before f cs j, u) else (n, p ++ (j - matching_before f cs j) :: u)
        | None => h
        end
    | _ => h
    end
  else h.
Lemma filter_none {A} (f : A -> bool) (l : list A) : (forall k x, l !! k = Some x -> f x = false) -> List.filter f l = [].
Proof.
  induction l as [|x l IH]; intros H; [done|]. simpl. rewrite (H 0 x eq_refl). apply IH. intros k y Hk. by apply (H (S k)).
Qed.
Lemma filter_all {A} (f : A -> bool) (l : list A) : (forall k x, l !! k = Some x -> f x = true) -> List.filter f l = l.
Proof.
  induction l as [|x l IH]; intros H; [done|]. simpl. rewrite (H 0 x eq_refl). f_equal. apply IH. intros k y Hk. by apply (H (S k)).
Qed.
Lemma first_at_filter {A} (f : A -> bool) (l : list A) j x :
  first_at f l 0 = Some j -> l !! j = Some x ->
  List.filter f l = x :: List.filter f (take j l ++ drop (S j) l) /\
  List.filter (fun y => negb (f y)) l = List.filter (fun y => negb (f y)) (take j l ++ drop (S j) l) /\
  List.filter f (take j l) = [] /\ f x = true.
Proof.
  intros H Hx. pose proof (first_at_is f l 0) as H0. rewrite H in H0. destruct H0 as (_&(x'&Hx'&HP)&Hb).
  rewrite Hx in Hx'. injection Hx' as <-.
  assert (E : List.filter f (take j l) = []).
  { apply filter_none. intros k y Hk. apply lookup_take_Some in Hk as [Hk Hlt]. apply (Hb k y); [lia|done]. }
  split_and!; [| |done|done].
  - rewrite <- (take_drop_middle _ _ _ Hx) at 1. rewrite !List.filter_app. simpl. rewrite HP, E. done.
  - rewrite <- (take_drop_middle _ _ _ Hx) at 1. rewrite !List.filter_app. simpl. rewrite HP. done.
Qed.
Lemma kids_handle_step f cs n new p j x h :
  first_at f cs 0 = Some j -> cs !! j = Some x -> n < new -> (forall i u, h.1 = n -> strip p h.2 = Some (i :: u) -> i < length cs) ->
  kids_handle f (take j cs ++ drop (S j) cs) n (S new) p (detach_handle n new p j h) = kids_handle f cs n new p h.
Proof.
  intros H Hx Hlt Hval. destruct h as [n' s]. destruct (first_at_filter _ _ _ _ H Hx) as (_&_&E&HP).
  pose proof (first_at_is f cs 0) as H0. rewrite H in H0. destruct H0 as (_&_&Hb).
  unfold detach_handle. simpl. destruct (Nat.eqb_spec n' n) as [->|Hne]; simpl.
  2:{ unfold kids_handle. simpl. destruct (Nat.eqb_spec n' n); [done|]. done. }
  unfold pos_removed. unfold kids_handle at 2. simpl. rewrite Nat.eqb_refl. destruct (strip p s) as [[|i u]|] eqn:Es.
  - unfold kids_handle. simpl. rewrite Nat.eqb_refl, Es. done.
  - destruct (Nat.eqb_spec i j) as [->|Hij].
    + rewrite Hx, HP. unfold kids_handle. simpl. destruct (Nat.eqb_spec new n); [lia|]. unfold matching_before. rewrite E. simpl. f_equal. lia.
    + unfold kids_handle. simpl. rewrite Nat.eqb_refl, strip_app, take_drop_del. destruct (Nat.ltb_spec j i) as [Hji|Hji].
      * replace (pred i <? j) with false by (symmetry; apply Nat.ltb_ge; lia). replace (S (pred i)) with i by lia.
        destruct (cs !! i) as [c|] eqn:Ei.
        -- assert (Em : matching_before f cs i = S (matching_before f (take j cs ++ drop (S j) cs) (pred i))).
           { unfold matching_before. pose proof (lookup_lt_Some _ _ _ Hx). pose proof (lookup_lt_Some _ _ _ Ei).
             rewrite take_app_ge by (rewrite take_length; lia). rewrite take_length.
             rewrite List.filter_app, E. simpl. rewrite take_drop_commute.
             replace (take i cs) with (take j cs ++ x :: drop (S j) (take i cs)).
             - rewrite List.filter_app, E. replace (S j + (pred i - j `min` length cs)) with i by lia. simpl. rewrite HP. done.
             - pose proof (take_drop_middle (take i cs) j x ltac:(by rewrite lookup_take)) as K. rewrite take_take in K.
               by replace (j `min` i) with j in K by lia. }
           rewrite Em. destruct (f c); [f_equal; lia|]. do 2 f_equal. f_equal. lia.
        -- apply lookup_ge_None in Ei. specialize (Hval i u eq_refl Es). lia.
      * assert (Hlt' : i < j) by lia. replace (i <? j) with true by (symmetry; by apply Nat.ltb_lt).
        assert (Em : matching_before f (take j cs ++ drop (S j) cs) i = 0 /\ matching_before f cs i = 0).
        { unfold matching_before. pose proof (lookup_lt_Some _ _ _ Hx). rewrite take_app_le by (rewrite take_length; lia). rewrite take_take.
          replace (i `min` j) with i by lia. assert (Ef : List.filter f (take i cs) = []); [|by rewrite Ef].
          apply filter_none. intros k y Hk. apply lookup_take_Some in Hk as [Hk Hk2]. apply (Hb k y); [lia|done]. }
        destruct Em as [-> ->]. destruct (cs !! i) as [c|] eqn:Ei.
        -- rewrite (Hb i c) by (first [lia|done]). done.
        -- apply lookup_ge_None in Ei. apply lookup_lt_Some in Hx. lia.
  - unfold kids_handle. simpl. rewrite Nat.eqb_refl, Es. done.
Qed.
Lemma treplace_id t p x : tsub t p = Some x -> treplace t p x = t.
Proof.
  revert t. induction p as [|i p IH]; intros t H; [by injection H|]. apply tsub_cons_some in H as (k&cs&c&->&Hi&H). simpl. f_equal.
  apply list_eq. intros j. destruct (Nat.eq_dec j i) as [->|]; [|by rewrite list_lookup_alter_ne]. rewrite list_lookup_alter, Hi. simpl. by rewrite (IH c H).
Qed.
Lemma treplace_twice t p x y : treplace (treplace t p x) p y = treplace t p y.
Proof.
  revert t. induction p as [|i p IH]; intros t; [done|]. destruct t as [k cs|]; [|done]. simpl. f_equal.
  apply list_eq. intros j. destruct (Nat.eq_dec j i) as [->|].
  - rewrite !list_lookup_alter. destruct (cs !! i); simpl; [by rewrite IH|done].
  - by rewrite !list_lookup_alter_ne.
Qed.
Lemma move_handles_id f l : (forall s h, l !! s = Some (Some h) -> f h = h) -> move_handles f l = l.
Proof.
  intros H. apply list_eq. intros s. rewrite move_lookup. destruct (l !! s) as [[h|]|] eqn:E; [|done|done]. simpl. by rewrite (H s h E).
Qed.
Lemma move_handles_comp f g l k : (forall s h, l !! s = Some (Some h) -> f (g h) = k h) -> move_handles f (move_handles g l) = move_handles k l.
Proof.
  intros H. apply list_eq. intros s. rewrite !move_lookup. destruct (l !! s) as [[h|]|] eqn:E; [|done|done]. simpl. by rewrite (H s h E).
Qed.
Lemma s_detach_all_effect f fuel n p st t k cs :
  wf_st st -> s_trees st !! n = Some (true, t) -> tsub t p = Some (Node k cs) -> length (List.filter f cs) < fuel ->
  s_detach_all fuel f (@pair nat pos n p) st =
  SOk (SS (<[n:=(true, treplace t p (Node k (List.filter (fun c => negb (f c)) cs)))]> (s_trees st) ++ map (pair true) (List.filter f cs))
          (move_handles (kids_handle f cs n (length (s_trees st)) p) (s_handles st)) (s_greens st) (s_leaked st)).
Proof.
  revert st t cs. induction fuel as [|fuel IH]; intros st t cs Hwf Ht Hp Hf; [lia|]. simpl. unfold s_detach_first, s_elem. simpl.
  rewrite Ht, Hp. simpl. destruct (first_at f cs 0) as [j|] eqn:E.
  - destruct (first_at_lt _ _ _ _ E) as (x&Hj&_&_). destruct (first_at_filter _ _ _ _ E Hj) as (E1&E2&E3&HP).
    assert (Hx : tsub t (p ++ [j]) = Some x). { rewrite tsub_app, Hp. simpl. by rewrite Hj. }
    change (s_detach (n, p ++ [j]) st) with (s_detach (@pair nat pos n (p ++ [j])) st). rewrite (s_detach_eq _ _ _ _ _ _ Ht Hx). simpl.
    destruct (after_detach_wf _ _ _ _ _ _ Ht Hx Hwf) as [H1 _].
    rewrite (IH _ _ _ H1 (detach_first_parent _ _ _ _ _ _ Ht Hx) (tdelete_node _ _ _ _ _ Hp)) by (rewrite E1 in Hf; simpl in Hf; lia).
    unfold after_detach. simpl. f_equal. f_equal.
    + assert (n < length (s_trees st)) by (by eapply lookup_lt_Some). rewrite insert_app_l by (rewrite insert_length; lia).
      rewrite list_insert_insert, (tdelete_eq _ _ _ _ _ Hp), treplace_twice, <- E2, E1. simpl. by rewrite <- app_assoc.
    + apply move_handles_comp. intros s h Hs. rewrite app_length, insert_length. simpl. rewrite Nat.add_1_r.
      eapply kids_handle_step; [done|done|by eapply lookup_lt_Some|]. intros i u Hn Hst. destruct (Hwf s h Hs) as (m&t'&Ht'&[y Hy]).
      rewrite Hn, Ht in Ht'. injection Ht' as <- <-. apply strip_some in Hst. rewrite Hst, tsub_app, Hp in Hy.
      apply tsub_cons_some in Hy as (?&?&?&[= <- <-]&Hi&_). by eapply lookup_lt_Some.
  - pose proof (first_at_is f cs 0) as H0. rewrite E in H0. simpl in H0.
    assert (E1 : List.filter f cs = []). { apply filter_none. intros i y Hi. apply (H0 i y); [lia|done]. }
    assert (E2 : List.filter (fun c => negb (f c)) cs = cs). { apply filter_all. intros i y Hi. rewrite (H0 i y); [done|lia|done]. }
    rewrite E1, E2, (treplace_id _ _ _ Hp), (list_insert_id _ _ _ Ht), app_nil_r. destruct st as [T Hd G L]. simpl. f_equal. f_equal. symmetry.
    apply move_handles_id. intros s [n' q] Hs. unfold kids_handle. simpl. destruct (Nat.eqb_spec n' n) as [->|]; [|done].
    destruct (strip p q) as [[|i u]|] eqn:Es; [done| |done]. destruct (cs !! i) as [c|] eqn:Ei; [|done].
    rewrite (H0 i c) by (first [lia|done]). unfold matching_before.
    replace (List.filter f (take i cs)) with (@nil tree).
    2:{ symmetry. apply filter_none. intros a y Ha. apply lookup_take_Some in Ha as [Ha _]. apply (H0 a y); [lia|done]. }
    simpl. rewrite Nat.sub_0_r. apply strip_some in Es. by subst q.
Qed.

(** ** The exact effect of [splice_children] *)
Lemma s_attach_root_slot s i c st n p t k cs nc tc :
  n <> nc -> s <> c -> s_handles st !! s = Some (Some (@pair nat pos n p)) -> s_trees st !! n = Some (true, t) -> tsub t p = Some (Node k cs) ->
  s_handles st !! c = Some (Some (@pair nat pos nc [])) -> s_trees st !! nc = Some (true, tc) ->
  i <= length cs -> (blen (ttext (tinsert_child t p i tc)) <= u32_max)%N ->
  s_attach s i c st = SOk (del_handle c (after_attach n p i nc true t tc st)).
Proof.
  intros Hne Hsc Hs Ht Hp Hc Htc Hi Hb. unfold s_attach. rewrite Hs. simpl. unfold s_elem. simpl. rewrite Ht, Hp. simpl. rewrite Hc. simpl.
  rewrite (s_detach_root _ _ _ Htc). simpl. rewrite Hs. simpl. rewrite Hc. simpl. rewrite (s_attach_root_eq n p i nc st _ _ _ _ _ _ Hne Ht Htc Hp).
  apply Nat.leb_le in Hi. apply N.leb_le in Hb. by rewrite Hi, Hb.
Qed.
Lemma ins_text_le t p k cs i tc l : tsub t p = Some (Node k cs) ->
  (blen (ttext (tinsert_child t p i tc)) <= blen (ttext (treplace t p (Node k (take i cs ++ (tc :: l) ++ drop i cs)))))%N.
Proof.
  intros Hp. rewrite (tinsert_eq _ _ _ _ _ _ Hp).
  destruct (treplace_text _ _ _ (Node k (take i cs ++ tc :: drop i cs)) Hp) as (q&E1&E2).
  destruct (treplace_text _ _ _ (Node k (take i cs ++ (tc :: l) ++ drop i cs)) Hp) as (q'&E1'&E2').
  rewrite E1 in E1'. apply app_inv_head, app_inv_head in E1'. subst q'. rewrite E2, E2'. simpl.
  rewrite !map_app, !concat_app. simpl. rewrite !map_app, !concat_app, !blen_app. lia.
Qed.
(** where a handle is after the trees [ncs] have become children [i], [i+1], ... of [p] *)
Fixpoint index_of (n : nat) (l : list nat) : option nat :=
  match l with [] => None | m :: l => if n =? m then Some 0 else S <$> index_of n l end.
(** proof device, no counterpart in the code *)
Definition splice_handle (n : nat) (p : pos) (i : nat) (ncs : list nat) (h : nat * pos) : nat * pos :=
  if h.1 =? n then
    match strip p h.2 with
    | Some (j :: u) => (n, p ++ (if i <=? j then j + length ncs else j) :: u)
    | _ => h
    end
  else match index_of h.1 ncs with Some d => (n, p ++ (i + d) :: h.2) | None => h end.
Lemma splice_handle_step n p i nc ncs h : n <> nc ->
  splice_handle n p (S i) ncs (attach_handle n nc p i h) = splice_handle n p i (nc :: ncs) h.
Proof.
  intros Hne. destruct h as [n' q]. unfold attach_handle, splice_handle at 2. simpl. destruct (Nat.eqb_spec n' n) as [->|Hn'].
  - unfold splice_handle, pos_inserted. simpl. rewrite Nat.eqb_refl. destruct (strip p q) as [[|j u]|] eqn:E.
    + apply strip_some in E. rewrite app_nil_r in E. subst q. pose proof (strip_app p []) as E. rewrite app_nil_r in E. by rewrite E.
    + rewrite strip_app. do 3 f_equal. destruct (Nat.leb_spec i j).
      * destruct (Nat.leb_spec i j); lia.
      * destruct j as [|j']; [done|]. destruct (Nat.leb_spec i j'); lia.
    + by rewrite E.
  - destruct (Nat.eqb_spec n' nc) as [->|Hnc].
    + unfold splice_handle. simpl. rewrite Nat.eqb_refl, strip_app, Nat.add_0_r. destruct i as [|i']; [done|]. destruct (Nat.leb_spec (S i') i'); [lia|done].
    + unfold splice_handle. simpl. destruct (Nat.eqb_spec n' n); [done|]. destruct (index_of n' ncs); simpl; [|done]. do 3 f_equal. lia.
Qed.
Lemma splice_handle_nil n p i h : splice_handle n p i [] h = h.
Proof.
  destruct h as [n' q]. unfold splice_handle. simpl. destruct (Nat.eqb_spec n' n) as [->|]; [|done].
  destruct (strip p q) as [[|j u]|] eqn:E; [done| |done]. apply strip_some in E. subst q. rewrite Nat.add_0_r. by destruct (i <=? j).
Qed.
Lemma s_attach_all_effect s n p ins tcs i st t k cs :
  s_handles st !! s = Some (Some (@pair nat pos n p)) -> s_trees st !! n = Some (true, t) -> tsub t p = Some (Node k cs) -> i <= length cs ->
  s ∉ ins ->
  Forall2 (fun c (x : nat * tree) => s_handles st !! c = Some (Some (@pair nat pos x.1 [])) /\ s_trees st !! x.1 = Some (true, x.2)) ins tcs ->
  NoDup ins -> NoDup (n :: map fst tcs) ->
  (blen (ttext (treplace t p (Node k (take i cs ++ map snd tcs ++ drop i cs)))) <= u32_max)%N ->
  exists st', s_attach_all s i ins st = SOk st' /\
    s_trees st' = <[n:=(true, treplace t p (Node k (take i cs ++ map snd tcs ++ drop i cs)))]> (s_trees st) /\
    (forall u, u ∉ ins -> s_handles st' !! u = fmap (splice_handle n p i (map fst tcs)) <$> s_handles st !! u) /\
    Forall (fun c => s_handles st' !! c = Some None) ins /\
    s_greens st' = s_greens st /\ s_leaked st' = s_leaked st.
Proof.
  revert tcs i st t cs. induction ins as [|c ins IH]; intros tcs i st t cs Hs Ht Hp Hi Hsn HF Hnd Hnt Hb.
  - apply Forall2_nil_inv_l in HF as ->. simpl. exists st. rewrite take_drop. rewrite (treplace_id _ _ _ Hp), (list_insert_id _ _ _ Ht).
    split_and!; try done. intros u _. destruct (s_handles st !! u) as [[h|]|]; simpl; [|done|done]. by rewrite splice_handle_nil.
  - apply Forall2_cons_inv_l in HF as ([nc tc]&tcs'&[Hc Htc]&HF&->). simpl in Hc, Htc.
    apply not_elem_of_cons in Hsn as [Hsc Hsn]. apply NoDup_cons in Hnd as [Hcn Hnd].
    apply NoDup_cons in Hnt as [Hn1 Hnt]. simpl in Hn1, Hnt. apply not_elem_of_cons in Hn1 as [Hne Hn1]. apply NoDup_cons in Hnt as [Hnc Hnt].
    simpl. destruct (Nat.eqb_spec c s); [by subst|]. simpl. simpl in Hb.
    rewrite (s_attach_root_slot s i c st n p t k cs nc tc) by (first [done|etrans; [by apply (ins_text_le _ _ _ _ _ _ (map snd tcs') Hp)|exact Hb]]). simpl.
    set (st1 := del_handle c (after_attach n p i nc true t tc st)).
    pose proof (lookup_lt_Some _ _ _ Ht) as Hlt.
    assert (Hs1 : s_handles st1 !! s = Some (Some (@pair nat pos n p))).
    { unfold st1. rewrite del_handle_lookup by done. simpl. rewrite move_lookup, Hs. simpl. unfold attach_handle. simpl. by rewrite Nat.eqb_refl, pos_inserted_self. }
    assert (Hp1 : tsub (tinsert_child t p i tc) p = Some (Node k (take i cs ++ tc :: drop i cs))).
    { rewrite (tinsert_eq _ _ _ _ _ _ Hp). by rewrite (treplace_sub _ _ _ _ Hp). }
    assert (Et : take (S i) (take i cs ++ tc :: drop i cs) = take i cs ++ [tc]).
    { rewrite take_app_ge by (rewrite take_length; lia). rewrite take_length. replace (S i - i `min` length cs) with 1 by lia. done. }
    assert (Ed : drop (S i) (take i cs ++ tc :: drop i cs) = drop i cs).
    { rewrite drop_app_ge by (rewrite take_length; lia). rewrite take_length. replace (S i - i `min` length cs) with 1 by lia. done. }
    assert (Er : treplace (tinsert_child t p i tc) p
        (Node k (take (S i) (take i cs ++ tc :: drop i cs) ++ map snd tcs' ++ drop (S i) (take i cs ++ tc :: drop i cs))) =
        treplace t p (Node k (take i cs ++ tc :: map snd tcs' ++ drop i cs))).
    { rewrite (tinsert_eq _ _ _ _ _ _ Hp), treplace_twice, Et, Ed. by rewrite <- app_assoc. }
    destruct (IH tcs' (S i) st1 (tinsert_child t p i tc) (take i cs ++ tc :: drop i cs)) as (st'&E1&E2&E3&E4&E5&E6).
    + done.
    + simpl. by rewrite list_lookup_insert.
    + done.
    + rewrite app_length, take_length. simpl. rewrite drop_length. lia.
    + done.
    + apply Forall2_same_length_lookup. pose proof (Forall2_length _ _ _ HF) as Hl. split; [done|]. intros j c' [nc' tc'] Hj1 Hj2.
      pose proof (Forall2_lookup_lr _ _ _ _ _ _ HF Hj1 Hj2) as [H1 H2]. simpl in *.
      assert (Hcc : c' <> c). { intros ->. apply Hcn. by eapply elem_of_list_lookup_2. }
      assert (Hin : nc' ∈ map fst tcs'). { apply elem_of_list_fmap. exists (nc', tc'). split; [done|]. by eapply elem_of_list_lookup_2. }
      split.
      * rewrite list_lookup_insert_ne by done. rewrite move_lookup, H1. simpl. unfold attach_handle. simpl.
        destruct (Nat.eqb_spec nc' n); [by subst|]. destruct (Nat.eqb_spec nc' nc); [by subst|]. done.
      * rewrite list_lookup_insert_ne; [done|]. intros ->. done.
    + done.
    + constructor; [|done]. done.
    + by rewrite Er.
    + assert (Hc1 : s_handles st1 !! c = Some None).
      { simpl. apply list_lookup_insert. unfold move_handles. rewrite map_length. by eapply lookup_lt_Some. }
      exists st'. split_and!; [done| | | |done|done].
      * rewrite E2, Er. simpl. by rewrite list_insert_insert.
      * intros u [Huc Hu]%not_elem_of_cons. rewrite (E3 u Hu). simpl. rewrite list_lookup_insert_ne by done. rewrite move_lookup.
        destruct (s_handles st !! u) as [[h|]|]; simpl; [|done|done]. by rewrite splice_handle_step.
      * constructor; [|done]. by rewrite (E3 c Hcn), Hc1.
Qed.
(** proof device, no counterpart in the code *)
Definition roots_in (st : sst) (ins : list nat) (tcs : list (nat * tree)) : Prop :=
  Forall2 (fun c (x : nat * tree) => s_handles st !! c = Some (Some (@pair nat pos x.1 [])) /\ s_trees st !! x.1 = Some (true, x.2)) ins tcs.
(** as the code is: at most one child is removed, whatever [b] *)
Lemma s_splice_effect s a b ins tcs st n p t k cs :
  wf_st st -> s_handles st !! s = Some (Some (@pair nat pos n p)) -> s_trees st !! n = Some (true, t) -> tsub t p = Some (Node k cs) -> a <= length cs ->
  s ∉ ins -> roots_in st ins tcs -> NoDup ins -> NoDup (n :: map fst tcs) ->
  let del := (a <? b) && (a <? length cs) in
  let t' := treplace t p (Node k (take a cs ++ map snd tcs ++ drop (if del then S a else a) cs)) in
  (blen (ttext t') <= u32_max)%N ->
  exists st', s_splice s a b ins st = SOk st' /\
    s_trees st' !! n = Some (true, t') /\
    (forall n2, n2 <> n -> n2 < length (s_trees st) -> s_trees st' !! n2 = s_trees st !! n2) /\
    (if del then exists x, cs !! a = Some x /\ s_trees st' !! length (s_trees st) = Some (true, x) else length (s_trees st') = length (s_trees st)) /\
    (forall u, u ∉ ins -> s_handles st' !! u =
       fmap (fun h => splice_handle n p a (map fst tcs) (if del then detach_handle n (length (s_trees st)) p a h else h)) <$> s_handles st !! u) /\
    Forall (fun c => s_handles st' !! c = Some None) ins.
Proof.
  intros Hwf Hs Ht Hp Ha Hsn HF Hnd Hnt del t' Hb. unfold s_splice. rewrite Hs. simpl. unfold s_elem. simpl. rewrite Ht, Hp. simpl.
  assert (Hfull : forallb (fun c => bool_decide (is_Some (mjoin (s_handles st !! c)))) ins = true).
  { apply forallb_forall. intros c Hc%elem_of_list_In. apply elem_of_list_lookup in Hc as [j Hj].
    destruct (Forall2_lookup_l _ _ _ _ _ HF Hj) as (x&_&[E _]). rewrite E. apply bool_decide_eq_true. by eexists. }
  rewrite Hfull. simpl. fold del. pose proof (lookup_lt_Some _ _ _ Ht) as Hlt. destruct del eqn:Ed.
  - apply andb_prop in Ed as [_ Ed%Nat.ltb_lt]. destruct (lookup_lt_is_Some_2 cs a Ed) as [x Hx].
    assert (Hx' : tsub t (p ++ [a]) = Some x). { rewrite tsub_app, Hp. simpl. by rewrite Hx. }
    change (s_detach (n, p ++ [a]) st) with (s_detach (@pair nat pos n (p ++ [a])) st). rewrite (s_detach_eq _ _ _ _ _ _ Ht Hx'). simpl.
    destruct (s_attach_all_effect s n p ins tcs a (after_detach n p a t x st) (tdelete_child t p a) k (take a cs ++ drop (S a) cs)) as (st'&E1&E2&E3&E4&_).
    + simpl. rewrite move_lookup, Hs. simpl. unfold detach_handle. simpl. by rewrite Nat.eqb_refl, pos_removed_self.
    + by apply detach_first_parent.
    + by apply tdelete_node.
    + rewrite app_length, take_length. lia.
    + done.
    + apply Forall2_same_length_lookup. split; [by eapply Forall2_length|]. intros j c' [nc' tc'] Hj1 Hj2.
      pose proof (Forall2_lookup_lr _ _ _ _ _ _ HF Hj1 Hj2) as [H1 H2]. simpl in *.
      assert (Hin : nc' ∈ map fst tcs). { apply elem_of_list_fmap. exists (nc', tc'). split; [done|]. by eapply elem_of_list_lookup_2. }
      assert (Hne : nc' <> n). { intros ->. by apply NoDup_cons in Hnt as [? _]. }
      split.
      * rewrite move_lookup, H1. simpl. unfold detach_handle. simpl. destruct (Nat.eqb_spec nc' n); done.
      * rewrite lookup_app_l by (rewrite insert_length; by eapply lookup_lt_Some). by rewrite list_lookup_insert_ne.
    + done.
    + done.
    + rewrite (tdelete_eq _ _ _ _ _ Hp), treplace_twice. rewrite take_app_alt, drop_app_alt by (rewrite take_length; lia). exact Hb.
    + exists st'. rewrite (tdelete_eq _ _ _ _ _ Hp), treplace_twice in E2. rewrite take_app_alt, drop_app_alt in E2 by (rewrite take_length; lia).
      rewrite E1, E2. split_and!; [done| | | | |done].
      * rewrite list_lookup_insert; [done|]. simpl. rewrite app_length, insert_length. simpl. lia.
      * intros n2 Hn2 Hl2. rewrite list_lookup_insert_ne by done. simpl. rewrite lookup_app_l by (rewrite insert_length; lia). by rewrite list_lookup_insert_ne.
      * exists x. split; [done|]. rewrite list_lookup_insert_ne by lia. simpl. rewrite lookup_app_r by (rewrite insert_length; lia). by rewrite insert_length, Nat.sub_diag.
      * intros u Hu. rewrite (E3 u Hu). simpl. rewrite move_lookup. by destruct (s_handles st !! u) as [[h|]|].
  - destruct (s_attach_all_effect s n p ins tcs a st t k cs) as (st'&E1&E2&E3&E4&_); try done. exists st'. simpl. rewrite E1, E2. split_and!; [done| | | | |done].
    + by rewrite list_lookup_insert.
    + intros n2 Hn2 Hl2. by rewrite list_lookup_insert_ne.
    + by rewrite insert_length.
    + intros u Hu. rewrite (E3 u Hu). by destruct (s_handles st !! u) as [[h|]|].
Qed.
