(** * Histories of the client specification machine *)
From Verif Require Export ClientFrame.

(** ** Slots are only ever added *)
Lemma attach_len s i c st st' : s_attach s i c st = SOk st' -> length (s_handles st') = length (s_handles st).
Proof.
  intros H. unfold s_attach in H. apply bind_ok in H as (h&_&H). apply bind_ok in H as ([m x]&_&H).
  apply bind_ok in H as ([]&_&H). apply bind_ok in H as (hc&_&H). apply bind_ok in H as (st1&Hd&H).
  apply bind_ok in H as (h'&_&H). apply bind_ok in H as (hc'&_&H). apply bind_ok in H as (st2&Ha&H). injection H as <-.
  cbn [s_handles del_handle]. rewrite insert_length, (handles_len_attach _ _ _ _ _ _ Ha). by apply (handles_len_detach hc).
Qed.
Lemma attach_all_len s i ins st st' : s_attach_all s i ins st = SOk st' -> length (s_handles st') = length (s_handles st).
Proof.
  revert i st. induction ins as [|c ins IH]; intros i st H; simpl in H; [by injection H as <-|].
  apply bind_ok in H as ([]&_&H). apply bind_ok in H as (st1&Ha&H). rewrite (IH _ _ H). by eapply attach_len.
Qed.
Lemma detach_first_len f h st o : s_detach_first f h st = SOk o -> length (s_handles (default st o)) = length (s_handles st).
Proof.
  unfold s_detach_first. intros H. apply bind_ok in H as ([m x]&_&H). apply bind_ok in H as ([]&_&H). destruct (first_at _ _ _); [|by injection H as <-].
  apply bind_ok in H as (st1&Hd&H). injection H as <-. by eapply handles_len_detach.
Qed.
Lemma detach_all_len f fuel h st st' : s_detach_all fuel f h st = SOk st' -> length (s_handles st') = length (s_handles st).
Proof.
  revert st. induction fuel as [|fuel IH]; intros st H; simpl in H; [by injection H as <-|]. apply bind_ok in H as (o&Ho&H).
  apply detach_first_len in Ho. destruct o as [st1|]; simpl in Ho; [rewrite (IH _ H); done|by injection H as <-].
Qed.
Lemma step_len o st st' x : s_step o st = SOk (st', x) -> length (s_handles st) <= length (s_handles st').
Proof.
  intros H. destruct o as [k s|k els|g|m g|s|s|s|nv s|tok s|s|s|s|s a b ins|tok s|tok m s|s|ra rb s|a b els g|i e g|i g|g]; simpl in H.
  - apply bind_ok in H as ([]&_&H). by injection H as <- _.
  - destruct (mapM _ els); [|done]. apply bind_ok in H as ([]&_&H). by injection H as <- _.
  - apply bind_ok in H as (y&_&H). by injection H as <- _.
  - apply bind_ok in H as (y&_&H). apply bind_ok in H as ([]&_&H). injection H as <- _. simpl. rewrite app_length. lia.
  - apply bind_ok in H as (y&_&H). apply bind_ok in H as ([]&_&H). by injection H as <- _.
  - apply bind_ok in H as (y&_&H). injection H as <- _. simpl. rewrite app_length. lia.
  - apply bind_ok in H as (y&_&H). injection H as <- _. simpl. by rewrite insert_length.
  - apply bind_ok in H as (y&_&H). destruct (s_trees st !! y.1) as [[]|]; [|done]. apply bind_ok in H as (q&_&H). injection H as <- _. simpl. rewrite app_length. lia.
  - apply bind_ok in H as (y&_&H). destruct (s_trees st !! y.1) as [[]|]; [|done]. apply bind_ok in H as (q&_&H). injection H as <- _.
    destruct (negb _ && _ && _); simpl; rewrite app_length, insert_length; lia.
  - apply bind_ok in H as (y&_&H). apply bind_ok in H as ([]&_&H). apply bind_ok in H as ([]&_&H). apply bind_ok in H as ([]&_&H).
    destruct (s_trees st !! y.1) as [[]|]; [|done]. injection H as <- _. simpl. rewrite app_length. lia.
  - apply bind_ok in H as (y&_&H). apply bind_ok in H as ([]&_&H). apply bind_ok in H as ([]&_&H). injection H as <- _. simpl. rewrite app_length. lia.
  - apply bind_ok in H as (h&_&H). apply bind_ok in H as (st1&Hd&H). injection H as <- _. by rewrite (handles_len_detach _ _ _ Hd).
  - apply bind_ok in H as (st1&Hd&H). injection H as <- _. unfold s_splice in Hd.
    apply bind_ok in Hd as (h&_&Hd). apply bind_ok in Hd as ([mu y]&_&Hd). apply bind_ok in Hd as ([]&_&Hd). apply bind_ok in Hd as ([]&_&Hd).
    apply bind_ok in Hd as (st2&Hdd&Hd). rewrite (attach_all_len _ _ _ _ _ Hd). destruct (_ && _); [by rewrite (handles_len_detach _ _ _ Hdd)|by injection Hdd as <-].
  - apply bind_ok in H as (st1&Hd&H). injection H as <- _. unfold s_detach_kids in Hd. apply bind_ok in Hd as (h&_&Hd).
    apply bind_ok in Hd as (o&Ho&Hd). injection Hd as <-. by rewrite (detach_first_len _ _ _ _ Ho).
  - apply bind_ok in H as (st1&Hd&H). injection H as <- _. unfold s_detach_by_kind in Hd. apply bind_ok in Hd as (h&_&Hd).
    apply bind_ok in Hd as ([mu y]&_&Hd). by rewrite (detach_all_len _ _ _ _ _ Hd).
  - apply bind_ok in H as (y&_&H). apply bind_ok in H as (l&_&H). by injection H as <- _.
  - apply bind_ok in H as (y&_&H). apply bind_ok in H as ([]&_&H). apply bind_ok in H as ([]&_&H). apply bind_ok in H as ([]&_&H).
    apply bind_ok in H as ([]&_&H). injection H as <- _. simpl. rewrite app_length. lia.
  - apply bind_ok in H as (y&_&H). apply bind_ok in H as ([]&_&H). destruct (mapM _ els); [|done].
    apply bind_ok in H as ([]&_&H). apply bind_ok in H as ([]&_&H). by injection H as <- _.
  - apply bind_ok in H as (y&_&H). apply bind_ok in H as ([]&_&H). apply bind_ok in H as (z&_&H). apply bind_ok in H as ([]&_&H). by injection H as <- _.
  - apply bind_ok in H as (y&_&H). apply bind_ok in H as ([]&_&H). destruct (_ !! i); [|done]. by injection H as <- _.
  - apply bind_ok in H as (y&_&H). by injection H as <- _.
Qed.
(** ** Over any history: immutable trees and handles on them stay as they are *)
Lemma run_mkeep prog st st' os : wf_st st -> s_run prog st = SOk (st', os) -> mkeep st st' /\ length (s_handles st) <= length (s_handles st').
Proof.
  revert st os. induction prog as [|o prog IH]; intros st os Hwf H; simpl in H; [injection H as <- <-; split; [apply mkeep_refl|done]|].
  apply bind_ok in H as ([st1 x]&H1&H). apply bind_ok in H as ([st2 xs]&H2&H). injection H as <- <-.
  assert (Hwf1 : wf_st st1). { pose proof (typed_step o st Hwf) as Hg. by rewrite H1 in Hg. }
  destruct (IH _ _ Hwf1 H2) as [Hk Hl]. pose proof (step_len _ _ _ _ H1) as Hl1. split; [|lia].
  eapply mkeep_trans; [exact Hl1|by eapply step_mkeep|done].
Qed.

(** ** Leaks *)
(** no [to_next_sibling(_or_token)] is called on the root of an immutable tree *)
Definition not_from_root (o : op) (st : sst) : Prop :=
  match o with
  | OToNext _ s => forall n t, s_handles st !! s = Some (Some (n, [])) -> s_trees st !! n <> Some (false, t)
  | _ => True
  end.
(** proof device, no counterpart in the code *)
Fixpoint never_from_root (prog : list op) (st : sst) : Prop :=
  match prog with
  | [] => True
  | o :: prog' => not_from_root o st /\ match s_step o st with SOk (st', _) => never_from_root prog' st' | _ => True end
  end.
Lemma run_no_leak prog st st' os : never_from_root prog st -> s_run prog st = SOk (st', os) -> s_leaked st' = s_leaked st.
Proof.
  revert st os. induction prog as [|o prog IH]; intros st os Hn H; simpl in H; [by injection H as <- <-|].
  apply bind_ok in H as ([st1 x]&H1&H). apply bind_ok in H as ([st2 xs]&H2&H). injection H as <- <-. destruct Hn as [Hn Hr]. rewrite H1 in Hr.
  rewrite (IH _ _ Hr H2). destruct (advances o) eqn:Ea; [|by eapply step_leaked]. destruct o as [| | | | | | | |tok s| | | | | | | | | | | |]; try done. simpl in H1.
  apply bind_ok in H1 as ([n p]&Hs%of_slot_some&H1). cbn [fst snd] in H1. destruct (s_trees st !! n) as [[m t]|] eqn:Ht; [|done].
  apply bind_ok in H1 as (q&_&H1). injection H1 as <- _. simpl in Hn. destruct (negb m && bool_decide (p = []) && _) eqn:E; [|done].
  apply andb_prop in E as [E _]. apply andb_prop in E as [E1 E2]. apply bool_decide_eq_true in E2 as ->. destruct m; [done|]. by destruct (Hn _ t Hs).
Qed.

(** ** When a call does not return *)
(** slot [c] holds the node in slot [s] or one of its ancestors *)
Definition above (st : sst) (c s : nat) : Prop :=
  exists n p r, s_handles st !! c = Some (Some (@pair nat pos n p)) /\ s_handles st !! s = Some (Some (@pair nat pos n (p ++ r))).
Lemma pos_removed_prefix p i a b u : pos_removed p i (a ++ b) = inr u -> exists u1 u2, u = u1 ++ u2 /\ length u1 = length a /\ length u2 = length b /\ pos_removed p i a = inr u1.
Proof.
  revert u. induction b as [|k b IH] using rev_ind; intros u H.
  - rewrite app_nil_r in H. exists u, []. rewrite app_nil_r. split_and!; try done. unfold pos_removed in H. destruct (strip p a) as [[|j s]|] eqn:E.
    + by injection H as <-.
    + destruct (j =? i); [done|]. injection H as <-. apply strip_some in E as ->. rewrite !app_length. done.
    + by injection H as <-.
  - rewrite app_assoc in H. destruct (decide (a ++ b = p)) as [Ep|Ep].
    + rewrite Ep, pos_removed_child in H. destruct (k =? i); [done|]. injection H as <-.
      destruct (IH p) as (u1&u2&E1&E2&E3&E4); [rewrite Ep; apply pos_removed_self|].
      exists u1, (u2 ++ [if i <? k then pred k else k]). rewrite E1 at 1. rewrite !app_length, app_assoc. simpl. split_and!; try done. lia.
    + rewrite pos_removed_snoc in H by done. destruct (pos_removed p i (a ++ b)) as [v|v] eqn:E; [done|]. injection H as <-.
      destruct (IH v eq_refl) as (u1&u2&->&E2&E3&E4). exists u1, (u2 ++ [k]). rewrite !app_length, app_assoc. simpl. split_and!; try done. lia.
Qed.
Lemma pos_inserted_prefix p i a b : exists u1 u2, pos_inserted p i (a ++ b) = u1 ++ u2 /\ length u1 = length a /\ pos_inserted p i a = u1.
Proof.
  induction b as [|k b IH] using rev_ind.
  - exists (pos_inserted p i a), []. rewrite !app_nil_r. split_and!; try done. unfold pos_inserted. destruct (strip p a) as [[|j s]|] eqn:E; try done.
    apply strip_some in E as ->. by rewrite !app_length.
  - rewrite app_assoc. destruct IH as (u1&u2&E1&E2&E3). destruct (decide (a ++ b = p)) as [Ep|Ep].
    + rewrite Ep, pos_inserted_child. rewrite Ep, pos_inserted_self in E1. exists u1, (u2 ++ [if i <=? k then S k else k]). split_and!; try done. rewrite E1. by rewrite app_assoc.
    + rewrite pos_inserted_snoc, E1 by done. exists u1, (u2 ++ [k]). by rewrite app_assoc.
Qed.
Lemma above_detach n p i t x st c s : wf_st st -> s_trees st !! n = Some (true, t) -> tsub t (p ++ [i]) = Some x ->
  above (after_detach n p i t x st) c s <-> above st c s /\ ~ (exists q r u, s_handles st !! c = Some (Some (@pair nat pos n q)) /\
     q ++ r = p ++ [i] /\ r <> [] /\ s_handles st !! s = Some (Some (@pair nat pos n (p ++ i :: u)))).
Proof.
  intros Hwf Ht Hx.
  assert (Hlt : forall s n' q, s_handles st !! s = Some (Some (@pair nat pos n' q)) -> n' < length (s_trees st)).
  { intros s' n' q H. destruct (Hwf s' _ H) as (m&u&E&_). by eapply lookup_lt_Some. }
  assert (Hn : n < length (s_trees st)) by (by eapply lookup_lt_Some).
  unfold above. cbn [s_handles after_detach]. split.
  - intros (n'&q&r&Hc&Hs). rewrite move_lookup in Hc, Hs.
    destruct (s_handles st !! c) as [[[nc pc]|]|] eqn:Ec; [|done|done]. destruct (s_handles st !! s) as [[[ns ps]|]|] eqn:Es; [|done|done].
    simpl in Hc, Hs. injection Hc as Hc. injection Hs as Hs. pose proof (Hlt _ _ _ Ec). pose proof (Hlt _ _ _ Es).
    unfold detach_handle in Hc, Hs. cbn [fst snd] in Hc, Hs. destruct (Nat.eqb_spec nc n) as [->|Hnc]; destruct (Nat.eqb_spec ns n) as [->|Hns].
    + destruct (pos_removed p i pc) as [u1|u1] eqn:E1; destruct (pos_removed p i ps) as [u2|u2] eqn:E2; injection Hc as ? ?; injection Hs as ? ?; subst; try lia.
      * apply pos_removed_inl in E1 as ->, E2 as ->. split; [eexists _, (p ++ i :: q), r; split; [done|]; by rewrite <- app_assoc|].
        intros (q'&r'&u&[= <-]&E&Hr&_). apply (f_equal length) in E. rewrite !app_length in E. simpl in E. destruct r'; [done|]. simpl in E. lia.
      * assert (Hlq : length q = length pc). { destruct (pos_removed_prefix p i pc [] q) as (?&?&E&?&?&E'); [by rewrite app_nil_r|]. rewrite E1 in E'. by injection E' as ->. }
        assert (Hll : length (q ++ r) = length ps).
        { destruct (pos_removed_prefix p i ps [] (q ++ r)) as (?&?&E&?&?&E'); [by rewrite app_nil_r|]. rewrite E2 in E'. by injection E' as ->. }
        rewrite app_length in Hll. destruct (pos_removed_prefix p i (take (length pc) ps) (drop (length pc) ps) (q ++ r)) as (a&b&E&E3&E4&E5); [by rewrite take_drop|].
        rewrite take_length_le in E3 by lia. destruct (app_inj_1 q a r b) as [<- _]; [lia|done|]. pose proof (pos_removed_inj _ _ _ _ (eq_trans E5 (eq_sym E1))) as E6.
        assert (E7 : ps = pc ++ drop (length pc) ps) by (rewrite <- E6 at 1; by rewrite take_drop).
        split; [exists n', pc, (drop (length pc) ps); split; [done|]; by rewrite <- E7|].
        intros (q'&r'&u&[= <-]&E'&Hr&[= ->]). unfold pos_removed in E2. by rewrite strip_app, Nat.eqb_refl in E2.
    + destruct (pos_removed p i pc); injection Hc as ? ?; injection Hs as ? ?; subst; lia.
    + destruct (pos_removed p i ps); injection Hc as ? ?; injection Hs as ? ?; subst; lia.
    + injection Hc as ? ?; injection Hs as ? ?; subst. split; [by exists n', q, r|]. intros (q'&r'&u&[= ? ?]&_). lia.
  - intros ((n'&q&r&Hc&Hs)&Hno). rewrite !move_lookup, Hc, Hs. simpl. unfold detach_handle. cbn [fst snd].
    destruct (Nat.eqb_spec n' n) as [->|Hne]; [|by exists n', q, r].
    destruct (pos_removed p i (q ++ r)) as [u|u] eqn:E.
    + destruct (pos_removed p i q) as [u1|u1] eqn:E1.
      * apply pos_removed_inl in E, E1. subst q. rewrite <- app_assoc in E. apply app_inv_head in E. injection E as <-. by exists (length (s_trees st)), u1, r.
      * exfalso. apply pos_removed_inl in E as E2. assert (Hr : exists r', r' <> [] /\ q ++ r' = p ++ [i]).
        { assert (length q <= length p) as Hle.
          { destruct (decide (length q <= length p)) as [?|Hgt]; [done|]. exfalso. unfold pos_removed in E1.
            assert (exists v, q = p ++ i :: v) as [v ->].
            { exists (take (length q - length p - 1) u). apply (f_equal (take (length q))) in E2. rewrite take_app in E2. rewrite E2 at 1.
              rewrite take_app_ge by lia. destruct (length q - length p) as [|d] eqn:Ed; [lia|]. simpl. by rewrite Nat.sub_0_r. }
            by rewrite strip_app, Nat.eqb_refl in E1. }
          exists (drop (length q) (p ++ [i])). split.
          - intros E3. apply (f_equal length) in E3. rewrite drop_length, app_length in E3. simpl in E3. lia.
          - apply (f_equal (take (length q))) in E2. rewrite take_app in E2. rewrite E2 at 1. rewrite (take_app_le p (i :: u)) by lia.
            rewrite drop_app_le by lia. by rewrite app_assoc, take_drop. }
        destruct Hr as (r'&Hr1&Hr2). apply Hno. exists q, r', u. split_and!; try done. by rewrite <- E2.
    + destruct (pos_removed_prefix p i q r u E) as (u1&u2&->&_&_&->). by exists n, u1, u2.
Qed.
Lemma above_attach n p i nc t tc k cs st c s : n <> nc -> s_trees st !! n = Some (true, t) -> tsub t p = Some (Node k cs) -> i <= length cs ->
  s_handles st !! s = Some (Some (@pair nat pos n p)) -> above (after_attach n p i nc true t tc st) c s -> above st c s.
Proof.
  intros Hne Ht Hp Hi Hs (n'&q&r&Hc&Hs'). cbn [s_handles after_attach] in Hc, Hs'. rewrite move_lookup in Hc, Hs'. rewrite Hs in Hs'. simpl in Hs'.
  injection Hs' as Hs'. unfold attach_handle at 1 in Hs'. cbn [fst snd] in Hs'. rewrite Nat.eqb_refl, pos_inserted_self in Hs'. injection Hs' as <- Ep.
  destruct (s_handles st !! c) as [[[n2 q2]|]|] eqn:Ec; [|done|done]. simpl in Hc. injection Hc as Hc. unfold attach_handle in Hc. cbn [fst snd] in Hc.
  destruct (Nat.eqb_spec n2 n) as [->|H1].
  - injection Hc as Hc. exists n, q2, (drop (length q2) p). split; [done|]. rewrite Hs. do 3 f_equal.
    destruct (pos_inserted_prefix p i q2 []) as (?&?&_&E1&E2). rewrite Hc in E2. subst x.
    assert (Hl : length q2 <= length p) by (rewrite Ep, app_length; lia).
    destruct (pos_inserted_prefix p i (take (length q2) p) (drop (length q2) p)) as (u1&u2&E3&E4&E5). rewrite take_drop, pos_inserted_self in E3.
    rewrite take_length_le in E4 by done. rewrite Ep in E3. destruct (app_inj_1 q u1 r u2) as [<- _]; [lia|done|].
    pose proof (pos_inserted_inj _ _ _ _ (eq_trans E5 (eq_sym Hc))) as E6. rewrite <- E6 at 1. by rewrite take_drop.
  - destruct (Nat.eqb_spec n2 nc) as [->|H2].
    + injection Hc as <-. apply (f_equal length) in Ep. rewrite !app_length in Ep. simpl in Ep. lia.
    + injection Hc as ? ?. by subst.
Qed.
Lemma above_del c c' s st : above (del_handle c' st) c s -> above st c s.
Proof.
  intros (n&p&r&H1&H2). exists n, p, r. cbn [s_handles del_handle] in *.
  destruct (Nat.eq_dec c' c) as [->|]; [|destruct (Nat.eq_dec c' s) as [->|]].
  - destruct (decide (c < length (s_handles st))); [by rewrite list_lookup_insert in H1|]. rewrite list_insert_ge in H1, H2 by lia. done.
  - destruct (decide (s < length (s_handles st))); [by rewrite list_lookup_insert in H2|]. rewrite list_insert_ge in H1, H2 by lia. done.
  - rewrite list_lookup_insert_ne in H1, H2 by done. done.
Qed.
Lemma bind_stuck {A B} (m : sres A) (f : A -> sres B) : m ≫= f = SStuck -> m = SStuck \/ exists a, m = SOk a /\ f a = SStuck.
Proof. destruct m; simpl; eauto; done. Qed.
Lemma s_elem_not_stuck st (h : nat * pos) : s_elem st h <> SStuck.
Proof. destruct h as [n p]. unfold s_elem. cbn [fst snd]. destruct (s_trees st !! n) as [[m t]|]; [|done]. by destruct (tsub t p). Qed.
Lemma s_detach_above h st st' c s : wf_st st -> wf_handle st h -> s_detach h st = SOk st' -> above st' c s -> above st c s.
Proof.
  intros Hwf (m&t&Ht&[x Hx]) H Ha. destruct h as [n p]. simpl in Ht, Hx. destruct m; [|by rewrite (s_detach_imm _ _ _ _ Ht) in H].
  destruct p as [|i p _] using rev_ind.
  - rewrite (s_detach_root _ _ _ Ht) in H. by injection H as <-.
  - rewrite (s_detach_eq _ _ _ _ _ _ Ht Hx) in H. injection H as <-. by eapply above_detach.
Qed.
Lemma s_detach_not_stuck h st : s_detach h st <> SStuck.
Proof. unfold s_detach. destruct (s_trees st !! h.1) as [[[] t]|]; simpl; [|done|done]. destruct (last h.2); [|done]. by destruct (tsub t h.2). Qed.
Lemma detached_root hc st st1 c hc' : wf_st st -> s_handles st !! c = Some (Some hc) -> s_detach hc st = SOk st1 -> s_handles st1 !! c = Some (Some hc') -> hc'.2 = [] /\ exists t, s_trees st1 !! hc'.1 = Some (true, t).
Proof.
  intros Hwf Hc Hd Hc'. pose proof (good_detach False hc st (Hwf c hc Hc) Hwf) as Hg. rewrite Hd in Hg. destruct Hg as (_&_&Hg).
  destruct (Hwf c hc Hc) as (mc&tc&Htc&_). destruct (Hg mc tc Htc) as (_&_&Hg'). destruct (Hg' c Hc) as (n'&t'&E1&E2).
  pose proof (eq_trans (eq_sym Hc') E1) as E3. injection E3 as ->. eauto.
Qed.
Lemma s_attach_stuck s i c st : wf_st st -> s_attach s i c st = SStuck -> above st c s.
Proof.
  intros Hwf H. unfold s_attach in H. apply bind_stuck in H as [H|(h&H1%of_slot_some&H)]; [by destruct (s_handles st !! s) as [[]|]|].
  apply bind_stuck in H as [H|([m x]&He&H)]. { by apply s_elem_not_stuck in H. }
  apply bind_stuck in H as [H|([]&_&H)]; [by destruct m|].
  apply bind_stuck in H as [H|(hc&H2%of_slot_some&H)]; [by destruct (s_handles st !! c) as [[]|]|].
  apply bind_stuck in H as [H|(st1&Hd&H)]; [by apply s_detach_not_stuck in H|].
  apply bind_stuck in H as [H|(h'&H3%of_slot_some&H)]; [by destruct (s_handles st1 !! s) as [[]|]|].
  apply bind_stuck in H as [H|(hc'&H4%of_slot_some&H)]; [by destruct (s_handles st1 !! c) as [[]|]|].
  apply bind_stuck in H as [H|(st2&_&H)]; [|done]. eapply s_detach_above; [done|exact (Hwf c hc H2)|exact Hd|].
  destruct (detached_root hc st st1 c hc' Hwf H2 Hd H4) as [Er (tc&Htc)]. destruct h' as [n1 p1], hc' as [n2 p2]. cbn [fst snd] in *.
  unfold s_attach_root in H. destruct (s_trees st1 !! n1) as [[m1 t1]|]; [|done]. rewrite Htc in H. destruct (tsub t1 p1) as [[]|]; try done.
  destruct (Nat.eqb_spec n1 n2) as [E|]; [|by destruct (_ && _)]. subst. by exists n2, [], p1.
Qed.
Lemma s_attach_above s i c st st' c' : wf_st st -> s_attach s i c st = SOk st' -> above st' c' s -> above st c' s.
Proof.
  intros Hwf H Hab. unfold s_attach in H. apply bind_ok in H as (h&H1%of_slot_some&H). apply bind_ok in H as ([m x]&He&H).
  apply bind_ok in H as ([]&Hm&H). destruct m; [|done]. apply bind_ok in H as (hc&H2%of_slot_some&H). apply bind_ok in H as (st1&Hd&H).
  apply bind_ok in H as (h'&H3%of_slot_some&H). apply bind_ok in H as (hc'&H4%of_slot_some&H). apply bind_ok in H as (st2&Ha&H). injection H as <-.
  eapply s_detach_above; [done|exact (Hwf c hc H2)|exact Hd|]. apply above_del in Hab.
  destruct (detached_root hc st st1 c hc' Hwf H2 Hd H4) as [Er (tc&Htc)]. destruct h' as [n1 p1], hc' as [n2 p2]. cbn [fst snd] in *. subst p2.
  destruct (s_trees st1 !! n1) as [[m1 t1]|] eqn:Ht1; [|by unfold s_attach_root in Ha; rewrite Ht1 in Ha].
  destruct (tsub t1 p1) as [[k cs|]|] eqn:Hp; try (unfold s_attach_root in Ha; rewrite Ht1, Htc, Hp in Ha; done).
  destruct (Nat.eq_dec n1 n2) as [->|Hne]; [unfold s_attach_root in Ha; by rewrite Ht1, Hp, Nat.eqb_refl in Ha|].
  assert (m1 = true) as ->.
  { destruct (s_detach_mkeep hc st st1 Hwf (Hwf c hc H2) Hd) as (_&_&Hk). destruct Hk as (_&Hk&_). specialize (Hk s h _ H1 H3). cbn [fst] in Hk. rewrite Ht1 in Hk.
    destruct (s_elem_ok _ _ _ _ He) as (t0&Et&_). rewrite Et in Hk. simpl in Hk. by injection Hk. }
  rewrite (s_attach_root_eq n1 p1 i n2 st1 true t1 true tc k cs Hne Ht1 Htc Hp) in Ha. destruct (_ && _) eqn:E; [|done]. injection Ha as <-.
  apply andb_prop in E as [E%Nat.leb_le _]. by eapply above_attach.
Qed.
Lemma s_attach_all_stuck s i ins st : wf_st st -> s_attach_all s i ins st = SStuck -> exists c, c ∈ ins /\ above st c s.
Proof.
  revert i st. induction ins as [|c ins IH]; intros i st Hwf H; simpl in H; [done|].
  apply bind_stuck in H as [H|([]&Hcs&H)]; [by destruct (negb _)|]. apply bind_stuck in H as [H|(st1&Ha&H)].
  - exists c. split; [left|by eapply s_attach_stuck].
  - destruct (Nat.eqb_spec c s) as [|Hne]; [done|]. destruct (s_attach_mkeep s i c st st1 Hwf (not_eq_sym Hne) Ha) as (Hwf1&_).
    destruct (IH _ _ Hwf1 H) as (c'&Hc'&Hab). exists c'. split; [by right|]. by eapply s_attach_above.
Qed.
Lemma s_range_not_stuck st h : s_range st h <> SStuck.
Proof. unfold s_range. destruct (s_trees st !! h.1) as [[m t]|]; [|done]. by destruct (trange t h.2). Qed.
(** only inserting a node below itself *)
Theorem step_stuck o st : wf_st st -> s_step o st = SStuck -> exists s a b ins c, o = OSplice s a b ins /\ c ∈ ins /\ above st c s.
Proof.
  intros Hwf H. destruct o as [k s|k els|g|m g|s|s|s|nv s|tok s|s|s|s|s a b ins|tok s|tok m s|s|ra rb s|a b els g|i e g|i g|g]; simpl in H.
  - by destruct (_ <=? _)%N.
  - destruct (mapM _ els); [|done]. by destruct (_ <=? _)%N.
  - by destruct (s_greens st !! g) as [[]|].
  - destruct (s_greens st !! g) as [[y|]|]; try done. simpl in H. by destruct (is_node y).
  - destruct (s_handles st !! s) as [[h|]|]; try done. simpl in H. unfold s_elem in H. destruct (s_trees st !! h.1) as [[]|]; [|done]. by destruct (tsub _ _).
  - by destruct (s_handles st !! s) as [[h|]|].
  - by destruct (s_handles st !! s) as [[h|]|].
  - apply bind_stuck in H as [H|([n p]&_&H)]; [by destruct (s_handles st !! s) as [[]|]|]. cbn [fst snd] in H. destruct (s_trees st !! n) as [[? t]|]; [|done].
    apply bind_stuck in H as [H|(?&_&H)]; [|done]. destruct nv; simpl in H; unfold down, for_node in H; try done; by destruct (tsub t p) as [[]|].
  - apply bind_stuck in H as [H|([n p]&_&H)]; [by destruct (s_handles st !! s) as [[]|]|]. cbn [fst snd] in H. destruct (s_trees st !! n) as [[? t]|]; [|done].
    apply bind_stuck in H as [H|(?&_&H)]; [|done]. destruct tok; simpl in H; unfold for_node in H; try done. by destruct (tsub t p) as [[]|].
  - destruct (s_handles st !! s) as [[h|]|]; try done. simpl in H. unfold s_elem in H. destruct (s_trees st !! h.1) as [[mu t]|]; [|done]. destruct (tsub t h.2) as [y|]; [|done].
    simpl in H. destruct (is_node y); [|done]. simpl in H. by destruct mu.
  - destruct (s_handles st !! s) as [[h|]|]; try done. simpl in H. unfold s_elem in H. destruct (s_trees st !! h.1) as [[mu t]|]; [|done]. destruct (tsub t h.2) as [y|]; [|done].
    simpl in H. by destruct (is_node y).
  - destruct (s_handles st !! s) as [[h|]|]; try done. simpl in H. apply bind_stuck in H as [H|(?&_&H)]; [by apply s_detach_not_stuck in H|done].
  - apply bind_stuck in H as [H|(?&_&H)]; [|done]. unfold s_splice in H.
    apply bind_stuck in H as [H|(h&H1%of_slot_some&H)]; [by destruct (s_handles st !! s) as [[]|]|].
    apply bind_stuck in H as [H|([mu y]&He&H)]. { by apply s_elem_not_stuck in H. }
    apply bind_stuck in H as [H|([]&_&H)]; [by destruct (_ && _)|]. apply bind_stuck in H as [H|([]&_&H)]; [by destruct mu|].
    apply bind_stuck in H as [H|(st2&Hdd&H)]; [destruct (_ && _); [by apply s_detach_not_stuck in H|done]|].
    exists s, a, b, ins. destruct (s_elem_ok _ _ _ _ He) as (t0&Ht&Hp).
    destruct ((a <? b) && (a <? length (tchildren y))) eqn:E.
    + destruct y as [k cs|]; [|simpl in E; rewrite andb_false_r in E; done]. simpl in E.
      apply andb_prop in E as [_ E%Nat.ltb_lt]. destruct (lookup_lt_is_Some_2 cs a E) as [y Hy].
      pose proof (wf_kid st h _ _ _ _ _ _ Ht Hp Hy) as Hw. destruct (s_detach_mkeep _ _ _ Hwf Hw Hdd) as (Hwf2&_&_).
      destruct (s_attach_all_stuck _ _ _ _ Hwf2 H) as (c&Hc&Hab). exists c. split_and!; [done|done|]. by eapply s_detach_above.
    + injection Hdd as <-. destruct (s_attach_all_stuck _ _ _ _ Hwf H) as (c&Hc&Hab). by exists c.
  - apply bind_stuck in H as [H|(?&_&H)]; [|done]. unfold s_detach_kids in H. apply bind_stuck in H as [H|(h&_&H)]; [by destruct (s_handles st !! s) as [[]|]|].
    apply bind_stuck in H as [H|(?&_&H)]; [|done]. exfalso. unfold s_detach_first in H.
    apply bind_stuck in H as [H|([mu y]&He&H)]. { by apply s_elem_not_stuck in H. }
    apply bind_stuck in H as [H|([]&_&H)]; [by destruct (is_node _)|]. destruct (first_at _ _ _); [|done]. apply bind_stuck in H as [H|(?&_&H)]; [by apply s_detach_not_stuck in H|done].
  - apply bind_stuck in H as [H|(?&_&H)]; [|done]. unfold s_detach_by_kind in H. apply bind_stuck in H as [H|(h&_&H)]; [by destruct (s_handles st !! s) as [[]|]|].
    apply bind_stuck in H as [H|([mu y]&He&H)]. { by apply s_elem_not_stuck in H. }
    exfalso. clear He Hwf. revert st H. generalize (S (length (tchildren y))). intros fuel. induction fuel as [|fuel IH]; intros st H; [done|].
    simpl in H. apply bind_stuck in H as [H|(o&Ho&H)]; [|destruct o; [by eapply IH|done]]. unfold s_detach_first in H.
    apply bind_stuck in H as [H|([mu' y']&He&H)]. { by apply s_elem_not_stuck in H. }
    apply bind_stuck in H as [H|([]&_&H)]; [by destruct (is_node _)|]. destruct (first_at _ _ _); [|done]. apply bind_stuck in H as [H|(?&_&H)]; [by apply s_detach_not_stuck in H|done].
  - destruct (s_handles st !! s) as [[h|]|]; try done. simpl in H. unfold s_look in H. destruct (s_trees st !! h.1) as [[]|]; [|done]. destruct (tsub _ _); [|done]. by destruct (trange _ _).
  - apply bind_stuck in H as [H|(h&_&H)]; [by destruct (s_handles st !! s) as [[]|]|]. apply bind_stuck in H as [H|([mu y]&_&H)]. { by apply s_elem_not_stuck in H. }
    apply bind_stuck in H as [H|([]&_&H)]; [by destruct (_ && _)|].
    apply bind_stuck in H as [H|([a b]&_&H)]; [by apply s_range_not_stuck in H|].
    apply bind_stuck in H as [H|([]&_&H)]; [by destruct (_ <=? _)%N|done].
  - apply bind_stuck in H as [H|(t&_&H)]; [by destruct (s_greens st !! g) as [[]|]|]. apply bind_stuck in H as [H|([]&_&H)]; [by destruct (is_node t)|].
    destruct (mapM _ els); [|done]. apply bind_stuck in H as [H|([]&_&H)]; [by destruct (_ && _)|]. apply bind_stuck in H as [H|([]&_&H)]; [by destruct (_ <=? _)%N|done].
  - apply bind_stuck in H as [H|(t&_&H)]; [by destruct (s_greens st !! g) as [[]|]|]. apply bind_stuck in H as [H|([]&_&H)]; [by destruct (is_node t)|].
    apply bind_stuck in H as [H|(x&_&H)]; [by destruct (s_greens st !! e) as [[]|]|]. apply bind_stuck in H as [H|([]&_&H)]; [by destruct (_ <=? _)%N|done].
  - apply bind_stuck in H as [H|(t&_&H)]; [by destruct (s_greens st !! g) as [[]|]|]. apply bind_stuck in H as [H|([]&_&H)]; [by destruct (is_node t)|].
    by destruct (_ !! i).
  - by destruct (s_greens st !! g) as [[]|].
Qed.

Lemma above_own_detach hc st st1 c s : wf_st st -> s_handles st !! c = Some (Some hc) -> s_detach hc st = SOk st1 -> above st c s -> above st1 c s.
Proof.
  intros Hwf Hc Hd Ha. destruct hc as [n p]. destruct (Hwf c _ Hc) as (m&t&Ht&[x Hx]). simpl in Ht, Hx. destruct m; [|by rewrite (s_detach_imm _ _ _ _ Ht) in Hd].
  destruct p as [|i p _] using rev_ind.
  - rewrite (s_detach_root _ _ _ Ht) in Hd. by injection Hd as <-.
  - rewrite (s_detach_eq _ _ _ _ _ _ Ht Hx) in Hd. injection Hd as <-. apply above_detach; [done|done|done|]. split; [done|].
    intros (q&r&u&Hq&E&Hr&_). pose proof (eq_trans (eq_sym Hc) Hq) as E'. injection E' as <-. rewrite <- (app_nil_r (p ++ [i])) in E at 2. apply app_inv_head in E. done.
Qed.
Lemma typed_handle st s n p m t : s_handles st !! s = Some (Some (@pair nat pos n p)) -> s_trees st !! n = Some (m, t) -> holds_node st s -> exists k cs, tsub t p = Some (Node k cs).
Proof.
  intros Hs Ht (h&Hh&He). rewrite (elem_at_eq st s n p m t Hs Ht) in He. destruct (tsub t p) as [[k cs|]|]; [eauto|done|done].
Qed.
Lemma s_splice_eq s i ins st n p (m : bool) t k cs :
  s_handles st !! s = Some (Some (@pair nat pos n p)) -> s_trees st !! n = Some (m, t) -> tsub t p = Some (Node k cs) -> Forall (full st) ins ->
  s_splice s i i ins st = if m then s_attach_all s i ins st else SPanic.
Proof.
  intros Hs Ht Hp Hf. unfold s_splice. rewrite Hs. simpl. unfold s_elem. simpl. rewrite Ht, Hp. simpl.
  match goal with |- context [@forallb nat ?f ?l] => assert (@forallb nat f l = true) as -> end.
  { apply forallb_forall. intros c' Hc'%elem_of_list_In. rewrite Forall_forall in Hf. destruct (Hf c' Hc') as [h' ->]. apply bool_decide_eq_true. by eexists. }
  simpl. destruct m; [|done]. simpl. by rewrite Nat.ltb_irrefl.
Qed.
(** proof device, no counterpart in the code *)
Definition s_attach_rest (s i c : nat) (st : sst) : sres sst :=
  h ← of_slot (A:=nat * pos) (s_handles st !! s);
  hc ← of_slot (A:=nat * pos) (s_handles st !! c);
  st ← s_attach_root h.1 h.2 i hc.1 st;
  SOk (del_handle c st).
Lemma s_attach_eq s i c st n p t x hc :
  s_handles st !! s = Some (Some (@pair nat pos n p)) -> s_trees st !! n = Some (true, t) -> tsub t p = Some x -> s_handles st !! c = Some (Some hc) ->
  s_attach s i c st = (st ← s_detach hc st; s_attach_rest s i c st).
Proof. intros Hs Ht Hp Hc. unfold s_attach. rewrite Hs, Hc. simpl. unfold s_elem. simpl. by rewrite Ht, Hp. Qed.
(** what [splice_children(i..i, [e])] does first *)
Lemma splice_detaches s i c st hc :
  wf_st st -> typed (OSplice s i i [c]) st -> s_handles st !! c = Some (Some hc) ->
  s_step (OSplice s i i [c]) st = ('(st1, _) ← s_step (ODetach c) st; s_step (OSplice s i i [c]) st1).
Proof.
  intros Hwf (Hn&_&Hsc&Hf) Hc. cbn [s_step]. rewrite Hc. cbn [of_slot mbind sres_bind]. assert (Hne : c <> s) by (intros ->; apply Hsc; left).
  destruct Hn as ([n p]&Hs&He) eqn:En. clear En. destruct (Hwf s _ Hs) as (m&t&Ht&_). cbn [fst] in Ht.
  destruct (typed_handle st s n p m t Hs Ht ltac:(by exists (n, p))) as (k&cs&Hp).
  destruct (s_detach hc st) as [st1| | |] eqn:Hd; cbn [mbind sres_bind].
  - destruct (s_detach_mkeep hc st st1 Hwf (Hwf c hc Hc) Hd) as (Hwf1&Hk&Hmk).
    assert (Hn1 : holds_node st1 s) by (eapply keeps_node; [exact Hk|by exists (n, p)]). destruct Hn1 as ([n1 p1]&Hs1&He1) eqn:En. clear En.
    destruct (Hwf1 s _ Hs1) as (m1&t1&Ht1&_). cbn [fst] in Ht1. destruct (typed_handle st1 s n1 p1 m1 t1 Hs1 Ht1 ltac:(by exists (n1, p1))) as (k1&cs1&Hp1).
    assert (m1 = m) as ->. { destruct Hmk as (_&Hmk&_). specialize (Hmk s _ _ Hs Hs1). cbn [fst] in Hmk. rewrite Ht, Ht1 in Hmk. by injection Hmk. }
    destruct (Hk c hc Hc) as ([hc1 Hc1]&_). destruct (detached_root hc st st1 c hc1 Hwf Hc Hd Hc1) as [Er (tc&Htc)].
    assert (Hd1 : s_detach hc1 st1 = SOk st1). { destruct hc1 as [nc pc]. cbn [fst snd] in Er, Htc. subst pc. by eapply s_detach_root. }
    rewrite (s_splice_eq s i [c] st n p m t k cs Hs Ht Hp Hf), (s_splice_eq s i [c] st1 n1 p1 m t1 k1 cs1 Hs1 Ht1 Hp1) by (repeat constructor; by exists hc1).
    destruct m; [|done]. cbn [s_attach_all]. rewrite (s_attach_eq s i c st n p t _ hc Hs Ht Hp Hc), (s_attach_eq s i c st1 n1 p1 t1 _ hc1 Hs1 Ht1 Hp1 Hc1).
    rewrite Hd, Hd1. done.
  - rewrite (s_splice_eq s i [c] st n p m t k cs Hs Ht Hp Hf). destruct m; [|done]. cbn [s_attach_all].
    rewrite (s_attach_eq s i c st n p t _ hc Hs Ht Hp Hc), Hd. destruct (Nat.eqb_spec c s) as [|_]; done.
  - by apply s_detach_not_stuck in Hd.
  - exfalso. pose proof (good_detach True hc st (Hwf c hc Hc) Hwf) as Hg. rewrite Hd in Hg. by apply Hg.
Qed.
(** inserting a node below itself *)
Lemma splice_above s i c ins st n p t :
  wf_st st -> typed (OSplice s i i (c :: ins)) st -> s_handles st !! s = Some (Some (@pair nat pos n p)) -> s_trees st !! n = Some (true, t) -> above st c s ->
  s_step (OSplice s i i (c :: ins)) st = SStuck.
Proof.
  intros Hwf (Hn&_&Hsc&Hf) Hs Ht Ha. destruct (typed_handle st s n p true t Hs Ht Hn) as (k&cs&Hp). assert (Hne : c <> s) by (intros ->; apply Hsc; left).
  destruct Ha as (n'&q&r&Hc&Hs') eqn:Ea. clear Ea. pose proof (eq_trans (eq_sym Hs) Hs') as E. injection E as <- ->.
  assert (exists st1, s_detach (@pair nat pos n q) st = SOk st1) as [st1 Hd].
  { destruct (Hwf c _ Hc) as (m1&t1&Ht1&[x Hx]). cbn [fst snd] in *. destruct q as [|j q _] using rev_ind; [eexists; by eapply s_detach_root|].
    assert (t1 = t) as -> by congruence. eexists. by eapply s_detach_eq. }
  pose proof (above_own_detach _ _ _ c s Hwf Hc Hd ltac:(by exists n, q, r)) as (n1&q1&r1&Hc1&Hs1).
  destruct (detached_root _ st st1 c _ Hwf Hc Hd Hc1) as [Er (tc&Htc)]. cbn [fst snd] in Er, Htc. subst q1. cbn [app] in Hs1.
  destruct (s_detach_mkeep _ st st1 Hwf (Hwf c _ Hc) Hd) as (Hwf1&Hk&_).
  assert (Hn1 : holds_node st1 s) by (eapply keeps_node; [exact Hk|exact Hn]). destruct (typed_handle st1 s n1 r1 true tc Hs1 Htc Hn1) as (k1&cs1&Hp1).
  cbn [s_step]. rewrite (s_splice_eq s i (c :: ins) st n _ true t k cs Hs Ht Hp Hf). cbn [s_attach_all].
  rewrite (s_attach_eq s i c st n _ t _ _ Hs Ht Hp Hc), Hd. destruct (Nat.eqb_spec c s) as [|_]; [done|]. simpl. unfold s_attach_rest.
  rewrite Hs1, Hc1. simpl. unfold s_attach_root. by rewrite Htc, Hp1, Nat.eqb_refl.
Qed.

(** ** Programs that respect the types *)
(** every call finds its variables full and of the right type *)
Fixpoint typed_run (prog : list op) (st : sst) : Prop :=
  match prog with
  | [] => True
  | o :: prog' => typed o st /\ match s_step o st with SOk (st', _) => typed_run prog' st' | _ => True end
  end.
Lemma typed_run_ok prog st : wf_st st -> typed_run prog st -> s_run prog st <> SIll.
Proof.
  revert st. induction prog as [|o prog IH]; intros st Hwf Ht; cbn [s_run]; [done|]. destruct Ht as [Ho Ht]. pose proof (typed_step o st Hwf) as Hg.
  destruct (s_step o st) as [[st1 x]| | |]; cbn [mbind sres_bind]; [|done|done|by destruct Hg]. simpl in Hg. specialize (IH st1 Hg Ht).
  by destruct (s_run prog st1) as [[]| | |].
Qed.
