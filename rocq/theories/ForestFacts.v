(** * What deleting and inserting does to every position (specification only) *)
From Verif Require Export Client CursorIter.

(** ** Nearest child *)
Lemma first_at_eq {A} (P : A -> bool) l lo o : is_first_from P l lo o -> o = first_at P l lo.
Proof. intros H. unfold first_at. rewrite (sel_go_first _ _ _ _ H). by destruct o. Qed.
Lemma first_at_is {A} (P : A -> bool) l lo : is_first_from P l lo (first_at P l lo).
Proof.
  remember (length l - lo) as n eqn:Hn. revert lo Hn. induction n as [|n IH]; intros lo Hn.
  - unfold first_at, sel_from. rewrite drop_ge by lia. simpl. intros k x Hk Hx. apply lookup_lt_Some in Hx. lia.
  - destruct (lookup_lt_is_Some_2 l lo) as [x Hx]; [lia|]. unfold first_at, sel_from. rewrite (drop_S _ x lo Hx). simpl. destruct (P x) eqn:HP.
    + simpl. split; [done|]. split; [eauto|]. intros; lia.
    + change (head (sel_go P (S lo) (drop (S lo) l))) with (first_at P l (S lo)). specialize (IH (S lo) ltac:(lia)).
      destruct (first_at P l (S lo)) as [j|]; simpl in *.
      * destruct IH as (H1&H2&H3). split; [lia|]. split; [done|]. intros k y Hk Hy. destruct (decide (k = lo)) as [->|]; [congruence|].
        apply (H3 k y); [lia|done].
      * intros k y Hk Hy. destruct (decide (k = lo)) as [->|]; [congruence|]. apply (IH k y); [lia|done].
Qed.
Lemma sel_from_step {A} (P : A -> bool) l lo :
  sel_from P l lo = match first_at P l lo with Some j => j :: sel_from P l (S j) | None => [] end.
Proof. apply sel_go_first, first_at_is. Qed.
Lemma first_at_unique {A} (P : A -> bool) l lo o : is_first_from P l lo o -> first_at P l lo = o.
Proof. intros H. by rewrite (first_at_eq _ _ _ _ H). Qed.
(** after the first one has been removed *)
Lemma first_at_removed {A} (P : A -> bool) l j : first_at P l 0 = Some j ->
  first_at P (take j l ++ drop (S j) l) 0 = pred <$> first_at P l (S j).
Proof.
  intros H. pose proof (first_at_is P l 0) as H0. rewrite H in H0. destruct H0 as (_&(x&Hx&HP)&Hbefore).
  pose proof (lookup_lt_Some _ _ _ Hx) as Hlt.
  assert (Hlk : forall k, (take j l ++ drop (S j) l) !! k = if decide (k < j) then l !! k else l !! S k).
  { intros k. destruct (decide (k < j)).
    - rewrite lookup_app_l by (rewrite take_length; lia). by rewrite lookup_take.
    - rewrite lookup_app_r by (rewrite take_length; lia). rewrite take_length, lookup_drop. f_equal. lia. }
  apply first_at_unique. pose proof (first_at_is P l (S j)) as H1. destruct (first_at P l (S j)) as [j'|]; simpl in *.
  - destruct H1 as (Hle&(y&Hy&HPy)&Hbet). destruct j' as [|j']; [lia|]. simpl. split; [lia|]. split.
    + exists y. rewrite Hlk, decide_False by lia. done.
    + intros k z Hk. rewrite Hlk. destruct (decide (k < j)); [apply Hbefore; lia|apply Hbet; lia].
  - intros k z _. rewrite Hlk. destruct (decide (k < j)); [apply Hbefore; lia|apply H1; lia].
Qed.

(** ** Lists *)
Lemma take_drop_del {A} (l : list A) i j : (take i l ++ drop (S i) l) !! j = if j <? i then l !! j else l !! S j.
Proof.
  destruct (Nat.ltb_spec j i).
  - destruct (decide (j < length l)); [rewrite lookup_app_l by (rewrite take_length; lia); by rewrite lookup_take|].
    rewrite lookup_app_r by (rewrite take_length; lia). rewrite lookup_drop, !lookup_ge_None_2; [done|lia|rewrite take_length; lia].
  - destruct (decide (i < length l)).
    + rewrite lookup_app_r by (rewrite take_length; lia). rewrite lookup_drop, take_length. f_equal. lia.
    + rewrite lookup_app_r by (rewrite take_length; lia). rewrite lookup_drop, !lookup_ge_None_2; [done|lia|rewrite take_length; lia].
Qed.
Lemma take_drop_ins {A} (l : list A) i j x : i <= length l ->
  (take i l ++ x :: drop i l) !! j = if j <? i then l !! j else if j =? i then Some x else l !! pred j.
Proof.
  intros Hi. destruct (Nat.ltb_spec j i).
  - rewrite lookup_app_l by (rewrite take_length; lia). by rewrite lookup_take.
  - rewrite lookup_app_r by (rewrite take_length; lia). rewrite take_length. replace (i `min` length l) with i by lia.
    destruct (Nat.eqb_spec j i) as [->|]; [by rewrite Nat.sub_diag|].
    destruct (j - i) as [|d] eqn:E; [lia|]. simpl. rewrite lookup_drop. f_equal. lia.
Qed.

(** positions that are neither above nor below *)
Lemma treplace_apart t p new s : strip p s = None -> strip s p = None -> tsub (treplace t p new) s = tsub t s.
Proof.
  revert t s. induction p as [|i p IH]; intros t s H1 H2; [done|]. destruct s as [|j s]; [done|].
  destruct t as [k cs|k u]; [|done]. simpl in *. destruct (Nat.eqb_spec i j) as [->|Hne].
  - rewrite Nat.eqb_refl in H2. rewrite list_lookup_alter. destruct (cs !! j); simpl; [by apply IH|done].
  - by rewrite list_lookup_alter_ne.
Qed.
Lemma treplace_above t s r new y : tsub t s = Some y -> tsub (treplace t (s ++ r) new) s = Some (treplace y r new).
Proof. intros H. rewrite (treplace_app _ _ _ _ _ H). by eapply treplace_sub. Qed.
Lemma treplace_below t p new s x : tsub t p = Some x -> tsub (treplace t p new) (p ++ s) = tsub new s.
Proof. intros H. rewrite tsub_app. by rewrite (treplace_sub _ _ _ _ H). Qed.

(** ** Deleting *)
Lemma tdelete_eq t p i k cs : tsub t p = Some (Node k cs) -> tdelete_child t p i = treplace t p (Node k (take i cs ++ drop (S i) cs)).
Proof. intros H. unfold tdelete_child. by rewrite H. Qed.
Lemma tinsert_eq t p i k cs x : tsub t p = Some (Node k cs) -> tinsert_child t p i x = treplace t p (Node k (take i cs ++ x :: drop i cs)).
Proof. intros H. unfold tinsert_child. by rewrite H. Qed.
Lemma strip_length p s : length s < length p -> strip p s = None.
Proof. intros H. destruct (strip p s) as [u|] eqn:E; [|done]. apply strip_some in E as ->. rewrite app_length in H. lia. Qed.
Lemma tsub_cons_some t i p x : tsub t (i :: p) = Some x -> exists k cs c, t = Node k cs /\ cs !! i = Some c /\ tsub c p = Some x.
Proof. destruct t as [k cs|]; simpl; [|done]. destruct (cs !! i) eqn:E; [|done]. eauto 6. Qed.
Lemma tsub_snoc_node t p i x : tsub t (p ++ [i]) = Some x -> exists k cs, tsub t p = Some (Node k cs) /\ cs !! i = Some x.
Proof.
  rewrite tsub_app. destruct (tsub t p) as [[k cs|]|]; try done. simpl. destruct (cs !! i) eqn:E; [|done]. intros [= <-]. eauto.
Qed.

(** the removed subtree keeps its elements; every other element is still there, at its
    new position, and differs only if it is above the removed one *)
Lemma tsub_removed t p i x s y :
  tsub t (p ++ [i]) = Some x -> tsub t s = Some y ->
  match pos_removed p i s with
  | inl s' => s = p ++ i :: s' /\ tsub x s' = Some y
  | inr s' => tsub (tdelete_child t p i) s' = Some (match strip s p with Some r => tdelete_child y r i | None => y end)
  end.
Proof.
  intros Hx Hs. destruct (tsub_snoc_node _ _ _ _ Hx) as (k&cs&Hp&Hi). rewrite (tdelete_eq _ _ _ _ _ Hp).
  unfold pos_removed. destruct (strip p s) as [[|j u]|] eqn:E.
  - apply strip_some in E. rewrite app_nil_r in E. subst s.
    assert (strip p p = Some []) as -> by (apply strip_some; by rewrite app_nil_r).
    rewrite (treplace_sub _ _ _ _ Hp). rewrite Hp in Hs. injection Hs as <-. done.
  - apply strip_some in E. subst s. rewrite tsub_app, Hp in Hs. apply tsub_cons_some in Hs as (k'&cs'&c&[= <- <-]&Hj&Hu).
    destruct (Nat.eqb_spec j i) as [->|Hne].
    + split; [done|]. rewrite Hi in Hj. by injection Hj as <-.
    + rewrite strip_length by (rewrite app_length; simpl; lia).
      rewrite (treplace_below _ _ _ _ _ Hp). simpl. rewrite take_drop_del.
      replace (if _ <? i then _ else _) with (cs !! j); [by rewrite Hj|].
      destruct (Nat.ltb_spec i j).
      * destruct (Nat.ltb_spec (pred j) i); [lia|]. f_equal; lia.
      * destruct (Nat.ltb_spec j i); [done|lia].
  - destruct (strip s p) as [r|] eqn:E2.
    + apply strip_some in E2. subst p. rewrite (treplace_above _ _ _ _ _ Hs). rewrite tsub_app, Hs in Hp. by rewrite (tdelete_eq _ _ _ _ _ Hp).
    + by rewrite treplace_apart.
Qed.
(** every element of the rest comes from one of the old tree *)
Lemma pos_removed_surj t p i x s' y :
  tsub t (p ++ [i]) = Some x -> tsub (tdelete_child t p i) s' = Some y -> exists s, pos_removed p i s = inr s' /\ is_Some (tsub t s).
Proof.
  intros Hx Hy. destruct (tsub_snoc_node _ _ _ _ Hx) as (k&cs&Hp&Hi). rewrite (tdelete_eq _ _ _ _ _ Hp) in Hy.
  destruct (strip p s') as [[|j u]|] eqn:E.
  - apply strip_some in E. rewrite app_nil_r in E. subst s'. exists p. split; [apply pos_removed_self|eauto].
  - apply strip_some in E. subst s'. rewrite (treplace_below _ _ _ _ _ Hp) in Hy. simpl in Hy.
    rewrite take_drop_del in Hy. exists (p ++ (if j <? i then j else S j) :: u). unfold pos_removed. rewrite strip_app.
    rewrite tsub_app, Hp. simpl. destruct (Nat.ltb_spec j i).
    + destruct (Nat.eqb_spec j i); [lia|]. destruct (Nat.ltb_spec i j); [lia|]. split; [done|]. destruct (cs !! j); [eauto|done].
    + destruct (Nat.eqb_spec (S j) i); [lia|]. destruct (Nat.ltb_spec i (S j)); [|lia]. split; [done|]. destruct (cs !! S j); [eauto|done].
  - exists s'. unfold pos_removed. rewrite E. split; [done|]. destruct (strip s' p) as [r|] eqn:E2.
    + apply strip_some in E2. subst p. rewrite tsub_app in Hp. destruct (tsub t s'); [eauto|done].
    + rewrite treplace_apart in Hy by done. eauto.
Qed.
Lemma pos_removed_inl p i s s' : pos_removed p i s = inl s' -> s = p ++ i :: s'.
Proof.
  unfold pos_removed. destruct (strip p s) as [[|j u]|] eqn:E; try done. apply strip_some in E as ->.
  destruct (Nat.eqb_spec j i) as [->|]; [|done]. by intros [= <-].
Qed.
(** no two elements become one *)
Lemma pos_removed_inj p i s1 s2 : pos_removed p i s1 = pos_removed p i s2 -> s1 = s2.
Proof.
  assert (Hn : forall s j u, strip p s = None -> s <> p ++ j :: u).
  { intros s j u H ->. by rewrite strip_app in H. }
  assert (Hz : forall j u, p <> p ++ j :: u).
  { intros j u H. apply (f_equal length) in H. rewrite app_length in H. simpl in H. lia. }
  unfold pos_removed. destruct (strip p s1) as [[|j1 u1]|] eqn:E1, (strip p s2) as [[|j2 u2]|] eqn:E2;
    repeat match goal with H : strip p _ = Some _ |- _ => apply strip_some in H; rewrite ?app_nil_r in H; subst end;
    repeat match goal with |- context[?a =? ?b] => destruct (Nat.eqb_spec a b); subst end;
    try done; intros H; try (exfalso; naive_solver); try congruence.
  - injection H as H. apply app_inv_head in H. injection H as H ->. f_equal. f_equal.
    destruct (Nat.ltb_spec i j1), (Nat.ltb_spec i j2); lia.
Qed.

(** ** Inserting *)
Lemma tsub_inserted t p i k cs new s y :
  tsub t p = Some (Node k cs) -> i <= length cs -> tsub t s = Some y ->
  tsub (tinsert_child t p i new) (pos_inserted p i s) = Some (match strip s p with Some r => tinsert_child y r i new | None => y end).
Proof.
  intros Hp Hi Hs. rewrite (tinsert_eq _ _ _ _ _ _ Hp). unfold pos_inserted. destruct (strip p s) as [[|j u]|] eqn:E.
  - apply strip_some in E. rewrite app_nil_r in E. subst s.
    assert (strip p p = Some []) as -> by (apply strip_some; by rewrite app_nil_r).
    rewrite (treplace_sub _ _ _ _ Hp). rewrite Hp in Hs. injection Hs as <-. done.
  - apply strip_some in E. subst s. rewrite tsub_app, Hp in Hs. apply tsub_cons_some in Hs as (k'&cs'&c&[= <- <-]&Hj&Hu).
    rewrite strip_length by (rewrite app_length; simpl; lia).
    rewrite (treplace_below _ _ _ _ _ Hp). simpl. rewrite take_drop_ins by done.
    destruct (Nat.leb_spec i j).
    + destruct (Nat.ltb_spec (S j) i); [lia|]. destruct (Nat.eqb_spec (S j) i); [lia|]. simpl. by rewrite Hj.
    + destruct (Nat.ltb_spec j i); [|lia]. by rewrite Hj.
  - destruct (strip s p) as [r|] eqn:E2.
    + apply strip_some in E2. subst p. rewrite (treplace_above _ _ _ _ _ Hs). rewrite tsub_app, Hs in Hp. by rewrite (tinsert_eq _ _ _ _ _ _ Hp).
    + by rewrite treplace_apart.
Qed.
Lemma tsub_inserted_new t p i k cs new s :
  tsub t p = Some (Node k cs) -> i <= length cs -> tsub (tinsert_child t p i new) (p ++ i :: s) = tsub new s.
Proof.
  intros Hp Hi. rewrite (tinsert_eq _ _ _ _ _ _ Hp), (treplace_below _ _ _ _ _ Hp). simpl. rewrite take_drop_ins by done.
  rewrite Nat.ltb_irrefl, Nat.eqb_refl. done.
Qed.
Lemma pos_inserted_inj p i s1 s2 : pos_inserted p i s1 = pos_inserted p i s2 -> s1 = s2.
Proof.
  assert (Hn : forall s j u, strip p s = None -> s <> p ++ j :: u).
  { intros s j u H ->. by rewrite strip_app in H. }
  assert (Hz : forall j u, p <> p ++ j :: u).
  { intros j u H. apply (f_equal length) in H. rewrite app_length in H. simpl in H. lia. }
  unfold pos_inserted. destruct (strip p s1) as [[|j1 u1]|] eqn:E1, (strip p s2) as [[|j2 u2]|] eqn:E2;
    repeat match goal with H : strip p _ = Some _ |- _ => apply strip_some in H; rewrite ?app_nil_r in H; subst end;
    try done; intros H; try (exfalso; naive_solver).
  - apply app_inv_head in H. injection H as H ->. f_equal. f_equal. destruct (Nat.leb_spec i j1), (Nat.leb_spec i j2); lia.
Qed.
Lemma pos_inserted_not_new p i s u : pos_inserted p i s <> p ++ i :: u.
Proof.
  unfold pos_inserted. destruct (strip p s) as [[|j v]|] eqn:E.
  - apply strip_some in E. rewrite app_nil_r in E. subst. intros H. apply (f_equal length) in H. rewrite app_length in H. simpl in H. lia.
  - intros H%app_inv_head. injection H as H _. destruct (Nat.leb_spec i j); lia.
  - intros ->. by rewrite strip_app in E.
Qed.
(** everything in the new tree is an old element or part of the inserted one *)
Lemma pos_inserted_surj t p i k cs new s' y :
  tsub t p = Some (Node k cs) -> i <= length cs -> tsub (tinsert_child t p i new) s' = Some y ->
  (exists s, pos_inserted p i s = s' /\ is_Some (tsub t s)) \/ (exists u, s' = p ++ i :: u).
Proof.
  intros Hp Hi Hy. rewrite (tinsert_eq _ _ _ _ _ _ Hp) in Hy. destruct (strip p s') as [[|j u]|] eqn:E.
  - apply strip_some in E. rewrite app_nil_r in E. subst s'. left. exists p. split; [apply pos_inserted_self|eauto].
  - apply strip_some in E. subst s'. destruct (Nat.eq_dec j i) as [->|]; [right; eauto|left].
    rewrite (treplace_below _ _ _ _ _ Hp) in Hy. simpl in Hy. rewrite take_drop_ins in Hy by done.
    exists (p ++ (if j <? i then j else pred j) :: u). unfold pos_inserted. rewrite strip_app, tsub_app, Hp. simpl.
    destruct (Nat.ltb_spec j i).
    + destruct (Nat.leb_spec i j); [lia|]. split; [done|]. destruct (cs !! j); [eauto|done].
    + destruct (Nat.eqb_spec j i); [lia|]. destruct (Nat.leb_spec i (pred j)); [|lia]. split; [do 2 f_equal; lia|]. destruct (cs !! pred j); [eauto|done].
  - left. exists s'. unfold pos_inserted. rewrite E. split; [done|]. destruct (strip s' p) as [r|] eqn:E2.
    + apply strip_some in E2. subst p. rewrite tsub_app in Hp. destruct (tsub t s'); [eauto|done].
    + rewrite treplace_apart in Hy by done. eauto.
Qed.

(** ** Text *)
Lemma tbefore_snoc t p k cs i : tsub t p = Some (Node k cs) -> tbefore t (p ++ [i]) = tbefore t p ++ concat (map ttext (take i cs)).
Proof.
  revert t. induction p as [|j p IH]; intros t H.
  - injection H as ->. simpl. destruct (cs !! i); by rewrite app_nil_r.
  - apply tsub_cons_some in H as (k'&cs'&c&->&Hj&H). simpl. rewrite Hj, (IH _ H). by rewrite app_assoc.
Qed.
Lemma tdelete_text t p i x :
  tsub t (p ++ [i]) = Some x ->
  exists q, ttext t = tbefore t (p ++ [i]) ++ ttext x ++ q /\ ttext (tdelete_child t p i) = tbefore t (p ++ [i]) ++ q.
Proof.
  intros Hx. destruct (tsub_snoc_node _ _ _ _ Hx) as (k&cs&Hp&Hi). rewrite (tdelete_eq _ _ _ _ _ Hp), (tbefore_snoc _ _ _ _ _ Hp).
  destruct (treplace_text _ _ _ (Node k (take i cs ++ drop (S i) cs)) Hp) as (q&E1&E2).
  exists (concat (map ttext (drop (S i) cs)) ++ q). rewrite E1, E2.
  rewrite <- (take_drop_middle _ _ _ Hi) at 1. simpl. rewrite !map_app, !concat_app. simpl. by rewrite <- !app_assoc.
Qed.
Lemma tinsert_text t p i k cs new :
  tsub t p = Some (Node k cs) ->
  exists q, ttext t = tbefore t (p ++ [i]) ++ q /\ ttext (tinsert_child t p i new) = tbefore t (p ++ [i]) ++ ttext new ++ q.
Proof.
  intros Hp. rewrite (tinsert_eq _ _ _ _ _ _ Hp), (tbefore_snoc _ _ _ _ _ Hp).
  destruct (treplace_text _ _ _ (Node k (take i cs ++ new :: drop i cs)) Hp) as (q&E1&E2).
  exists (concat (map ttext (drop i cs)) ++ q). rewrite E1, E2.
  rewrite <- (take_drop i cs) at 1. simpl. rewrite !map_app, !concat_app. simpl. by rewrite <- !app_assoc.
Qed.
