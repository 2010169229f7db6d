(** * Facts about the iterators over children, siblings and ancestors *)
From Verif Require Export CursorFacts.

Lemma sel_go_first {A} (P : A -> bool) (l : list A) lo o :
  is_first_from P l lo o ->
  sel_from P l lo = match o with Some j => j :: sel_from P l (S j) | None => [] end.
Proof.
  intros H. remember (length l - lo) as n eqn:Hn. revert lo H Hn.
  induction n as [|n IH]; intros lo H Hn.
  - unfold sel_from. rewrite drop_ge by lia. destruct o as [j|]; [|done].
    destruct H as (H1&(x&Hx&_)&_). apply lookup_lt_Some in Hx. lia.
  - destruct (lookup_lt_is_Some_2 l lo) as [x Hx]; [lia|].
    unfold sel_from at 1. rewrite (drop_S _ x lo Hx). simpl. destruct (P x) eqn:HP.
    + destruct o as [j|]; [|specialize (H lo x ltac:(lia) Hx); congruence].
      destruct H as (H1&_&H2). assert (j = lo) as ->; [|done].
      destruct (decide (lo < j)); [|lia]. specialize (H2 lo x ltac:(lia) Hx). congruence.
    + change (sel_go P (S lo) (drop (S lo) l)) with (sel_from P l (S lo)). apply IH; [|lia].
      destruct o as [j|].
      * destruct H as (H1&(y&Hy&HPy)&H2). split; [|split; [eauto|]].
        -- destruct (decide (lo = j)) as [->|]; [|lia]. congruence.
        -- intros k z Hk. apply H2. lia.
      * intros k z Hk. apply H. lia.
Qed.
Lemma sel_go_app {A} (P : A -> bool) i (l1 l2 : list A) :
  sel_go P i (l1 ++ l2) = sel_go P i l1 ++ sel_go P (i + length l1) l2.
Proof.
  revert i. induction l1 as [|x l1 IH]; intros i; simpl; [by rewrite Nat.add_0_r|].
  rewrite IH. replace (S i + length l1) with (i + S (length l1)) by lia. by destruct (P x).
Qed.
Lemma sel_go_last {A} (P : A -> bool) (l : list A) hi o :
  is_last_below P l hi o ->
  sel_below P l hi = match o with Some j => j :: sel_below P l j | None => [] end.
Proof.
  revert o. induction hi as [|hi IH]; intros o H.
  - destruct o as [j|]; [destruct H; lia|done].
  - unfold sel_below at 1. destruct (l !! hi) as [x|] eqn:Hx.
    + rewrite (take_S_r _ _ _ Hx), sel_go_app, rev_app_distr. simpl.
      apply lookup_lt_Some in Hx as Hlt. rewrite take_length, Nat.min_l by lia.
      change (rev (sel_go P 0 (take hi l))) with (sel_below P l hi).
      destruct (P x) eqn:HP; simpl.
      * destruct o as [j|]; [|specialize (H hi x ltac:(lia) Hx); congruence].
        destruct H as (H1&_&H2). assert (j = hi) as ->; [|done].
        destruct (decide (j < hi)); [|lia]. specialize (H2 hi x ltac:(lia) Hx). congruence.
      * apply IH. destruct o as [j|].
        -- destruct H as (H1&(y&Hy&HPy)&H2). split; [|split; [eauto|]].
           ++ destruct (decide (hi = j)) as [->|]; [|lia]. congruence.
           ++ intros k z Hk. apply H2. lia.
        -- intros k z Hk. apply H. lia.
    + assert (take (S hi) l = take hi l) as ->.
      { apply lookup_ge_None in Hx. rewrite !take_ge by lia. done. }
      change (rev (sel_go P 0 (take hi l))) with (sel_below P l hi). apply IH.
      destruct o as [j|].
      * destruct H as (H1&(y&Hy&HPy)&H2). split; [|split; [eauto|]].
        -- destruct (decide (hi = j)) as [->|]; [|lia]. congruence.
        -- intros k z Hk. apply H2. lia.
      * intros k z Hk. apply H. lia.
Qed.
Lemma first_from_child {A} (P : A -> bool) (l : list A) lo j :
  is_first_from P l lo (Some j) -> exists x, l !! j = Some x.
Proof. intros (_&(x&?&_)&_). eauto. Qed.

(** [cs] are the elements at the children [is] of position [p] *)
Definition at_children (root : green) (p : pos) (is : list nat) (cs : list cursor) : Prop :=
  Forall2 (fun i c => cursor_at root (p ++ [i]) = Some c) is cs.

Section iter.
Context (root : green) (Hwf : wfg root) (p : pos) (c0 : cursor) (H0 : cursor_at root p = Some c0).
Local Notation cs := (tchildren (erase (c_green c0))).
Local Notation at_ o := (o ≫= fun i => cursor_at root (p ++ [i])).

Lemma child_exists i x : cs !! i = Some x -> exists c, cursor_at root (p ++ [i]) = Some c.
Proof using H0.
  rewrite lookup_erase_children. intros H. destruct (gchildren (c_green c0) !! i) as [ch|] eqn:E; [|done].
  eexists. by eapply cursor_at_child.
Qed.

(** iterators driven by a successor function *)
Lemma succ_next_yields Q nx :
  (forall i c, cursor_at root (p ++ [i]) = Some c -> exists o, is_first_from Q cs (S i) o /\ answer root p (nx c) o) ->
  forall lo o, is_first_from Q cs lo o ->
  exists l, yields (successors_next nx) (at_ o) l /\ at_children root p (sel_from Q cs lo) l.
Proof using H0.
  intros Hnx lo o. remember (length cs - lo) as n eqn:Hn. revert lo o Hn.
  induction n as [n IH] using lt_wf_ind. intros lo o Hn Hfst. rewrite (sel_go_first _ _ _ _ Hfst).
  destruct o as [j|]; simpl.
  - destruct (first_from_child _ _ _ _ Hfst) as [x Hx]. destruct (child_exists _ _ Hx) as [c Hc]. rewrite Hc.
    destruct (Hnx j c Hc) as (o'&Ho'&Ha). destruct Hfst as (Hlo&_&_). apply lookup_lt_Some in Hx.
    destruct (IH (length cs - S j) ltac:(lia) (S j) o' eq_refl Ho') as (l&Hy&Hat).
    exists (c :: l). split; [|by constructor]. eapply yields_cons; [|exact Hy]. simpl. by rewrite Ha.
  - exists []. split; [|constructor]. by eapply yields_nil.
Qed.
Lemma succ_prev_yields Q nx :
  (forall i c, cursor_at root (p ++ [i]) = Some c -> exists o, is_last_below Q cs i o /\ answer root p (nx c) o) ->
  forall hi o, is_last_below Q cs hi o ->
  exists l, yields (successors_next nx) (at_ o) l /\ at_children root p (sel_below Q cs hi) l.
Proof using H0.
  intros Hnx hi. induction hi as [hi IH] using lt_wf_ind. intros o Hl. rewrite (sel_go_last _ _ _ _ Hl).
  destruct o as [j|]; simpl.
  - destruct Hl as (Hlt&(x&Hx&_)&_). destruct (child_exists _ _ Hx) as [c Hc]. rewrite Hc.
    destruct (Hnx j c Hc) as (o'&Ho'&Ha). destruct (IH j Hlt o' Ho') as (l&Hy&Hat).
    exists (c :: l). split; [|by constructor]. eapply yields_cons; [|exact Hy]. simpl. by rewrite Ha.
  - exists []. split; [|constructor]. by eapply yields_nil.
Qed.

(** [children] and [children_with_tokens]: the state remembers the element last yielded *)
Section ci.
Context (first next : cursor -> res (option cursor)) (Q : tree -> bool)
  (Hfirst : exists o, is_first_from Q cs 0 o /\ answer root p (first c0) o)
  (Hnext : forall i c, cursor_at root (p ++ [i]) = Some c ->
     exists o, is_first_from Q cs (S i) o /\ answer root p (next c) o).
Let ci_next_fn : iter children_iter cursor := fun it =>
  nx ← (if negb (ci_init it) then first (ci_parent it)
        else match ci_next it with Some n => next n | None => Ok None end);
  Ok (nx, CI (ci_parent it) nx true).
Lemma ci_yields_gen :
  forall lo it, (exists o, is_first_from Q cs lo o /\ ci_next_fn it = Ok (at_ o, CI c0 (at_ o) true)) ->
  exists l, yields ci_next_fn it l /\ at_children root p (sel_from Q cs lo) l.
Proof using H0 Hnext.
  intros lo. remember (length cs - lo) as n eqn:Hn. revert lo Hn.
  induction n as [n IH] using lt_wf_ind. intros lo Hn it (o&Hfst&Hit). rewrite (sel_go_first _ _ _ _ Hfst).
  destruct o as [j|]; simpl in Hit.
  - destruct (first_from_child _ _ _ _ Hfst) as [x Hx]. destruct (child_exists _ _ Hx) as [c Hc]. rewrite Hc in Hit.
    destruct Hfst as (Hlo&_&_). apply lookup_lt_Some in Hx.
    destruct (Hnext j c Hc) as (o'&Ho'&Ha).
    destruct (IH (length cs - S j) ltac:(lia) (S j) eq_refl (CI c0 (Some c) true)) as (l&Hy&Hat).
    { exists o'. split; [done|]. unfold ci_next_fn. simpl. rewrite Ha. done. }
    exists (c :: l). split; [|by constructor]. by eapply yields_cons.
  - exists []. split; [|constructor]. by eapply yields_nil.
Qed.
Lemma ci_yields_new :
  exists l, yields ci_next_fn (children_new c0) l /\ at_children root p (sel_from Q cs 0) l.
Proof using H0 Hnext Hfirst.
  apply ci_yields_gen. destruct Hfirst as (o&Ho&Ha). exists o. split; [done|].
  unfold ci_next_fn. simpl. by rewrite Ha.
Qed.
(** resumed after having yielded the element at index [i] *)
Lemma ci_yields_mid i c :
  cursor_at root (p ++ [i]) = Some c ->
  exists l, yields ci_next_fn (CI c0 (Some c) true) l /\ at_children root p (sel_from Q cs (S i)) l.
Proof using H0 Hnext.
  intros Hc. apply ci_yields_gen. destruct (Hnext i c Hc) as (o&Ho&Ha). exists o. split; [done|].
  unfold ci_next_fn. simpl. by rewrite Ha.
Qed.
End ci.

Lemma first_child_or_token_ans : exists o, is_first_from any cs 0 o /\ answer root p (first_child_or_token c0) o.
Proof using H0 Hwf.
  destruct cs as [|x l] eqn:E.
  - exists None. split; [intros k y _ Hy; by rewrite lookup_nil in Hy|]. unfold answer. simpl.
    rewrite (first_child_or_token_at root Hwf p c0 H0). f_equal.
    eapply cursor_at_child_None; [exact H0|]. pose proof (lookup_erase_children (c_green c0) 0) as Hl.
    rewrite E in Hl. by destruct (gchildren (c_green c0) !! 0).
  - exists (Some 0). split; [|by apply (first_child_or_token_at root Hwf)].
    split; [lia|]. split; [by exists x|]. intros; lia.
Qed.
Lemma next_sibling_or_token_ans i c :
  cursor_at root (p ++ [i]) = Some c ->
  exists o, is_first_from any cs (S i) o /\ answer root p (next_sibling_or_token c) o.
Proof using H0 Hwf.
  intros Hc. pose proof (next_sibling_or_token_at' root Hwf p i c c0 Hc H0) as Hn.
  destruct (cs !! S i) as [x|] eqn:E.
  - exists (Some (S i)). split; [|done]. split; [lia|]. split; [eauto|]. intros; lia.
  - exists None. split.
    + intros k y Hk Hy. apply lookup_lt_Some in Hy. apply lookup_ge_None in E. lia.
    + unfold answer. rewrite Hn. f_equal. simpl. eapply cursor_at_child_None; [exact H0|].
      rewrite lookup_erase_children in E. by destruct (gchildren (c_green c0) !! S i).
Qed.
Lemma prev_sibling_or_token_ans i c :
  cursor_at root (p ++ [i]) = Some c ->
  exists o, is_last_below any cs i o /\ answer root p (prev_sibling_or_token c) o.
Proof using H0 Hwf.
  intros Hc. pose proof (prev_sibling_or_token_at' root Hwf p i c c0 Hc H0) as Hn.
  destruct i as [|i].
  - exists None. split; [intros k x Hk; lia|done].
  - exists (Some i). split; [|done]. split; [lia|]. split; [|intros; lia].
    apply cursor_at_tsub in Hc. rewrite tsub_snoc, (cursor_at_tsub _ _ _ H0) in Hc.
    apply lookup_lt_Some in Hc. destruct (lookup_lt_is_Some_2 cs i) as [x Hx]; [lia|]. eauto.
Qed.

Lemma children_yields :
  exists l, yields node_children_next (children_new c0) l /\ at_children root p (sel_from is_node cs 0) l.
Proof using H0 Hwf.
  apply (ci_yields_new first_child next_sibling is_node).
  - by apply first_child_at.
  - intros i c Hc. by apply (next_sibling_at' root Hwf p i).
Qed.
Lemma children_with_tokens_yields :
  exists l, yields element_children_next (children_new c0) l /\ at_children root p (sel_from any cs 0) l.
Proof using H0 Hwf.
  apply (ci_yields_new first_child_or_token next_sibling_or_token any).
  - apply first_child_or_token_ans.
  - intros i c Hc. by apply next_sibling_or_token_ans.
Qed.
Lemma children_by_kind_yields m :
  exists st l, node_by_kind m (children_new c0) = Ok st /\ yields (node_by_kind_next m) st l /\
    at_children root p (sel_from (fun t => m (tkind t) && is_node t) cs 0) l.
Proof using H0 Hwf.
  destruct (first_child_by_kind_at root Hwf m p c0 H0) as (o&Ho&Ha).
  destruct (succ_next_yields _ (next_sibling_by_kind m)
    (fun i c Hc => next_sibling_by_kind_at' root Hwf p i c c0 Hc H0 m) 0 o Ho) as (l&Hy&Hl).
  exists (at_ o), l. split; [|done]. unfold node_by_kind. simpl. by rewrite Ha.
Qed.
Lemma children_with_tokens_by_kind_yields m :
  exists st l, element_by_kind m (children_new c0) = Ok st /\ yields (element_by_kind_next m) st l /\
    at_children root p (sel_from (fun t => m (tkind t)) cs 0) l.
Proof using H0 Hwf.
  destruct (first_child_or_token_by_kind_at root Hwf m p c0 H0) as (o&Ho&Ha).
  destruct (succ_next_yields _ (next_sibling_or_token_by_kind m)
    (fun i c Hc => next_sibling_or_token_by_kind_at' root Hwf p i c c0 Hc H0 m) 0 o Ho) as (l&Hy&Hl).
  exists (at_ o), l. split; [|done]. unfold element_by_kind. simpl. by rewrite Ha.
Qed.
(** [by_kind] on an iterator that has already yielded the element at [i]
    starts again at that element *)
Lemma by_kind_mid_gen (Q : tree -> bool) nx i c (b : bool) :
  cursor_at root (p ++ [i]) = Some c -> b = Q (erase (c_green c)) ->
  (forall i c, cursor_at root (p ++ [i]) = Some c -> exists o, is_first_from Q cs (S i) o /\ answer root p (nx c) o) ->
  exists st l, (if b then Ok (Some c) else nx c) = Ok st /\ yields (successors_next nx) st l /\
    at_children root p (sel_from Q cs i) l.
Proof using H0.
  intros Hc -> Hnx. apply cursor_at_tsub in Hc as Hx. rewrite tsub_snoc, (cursor_at_tsub _ _ _ H0) in Hx.
  destruct (Q (erase (c_green c))) eqn:HQ.
  - destruct (succ_next_yields Q nx Hnx i (Some i)) as (l&Hy&Hl).
    { split; [lia|]. split; [eauto|]. intros; lia. }
    exists (Some c), l. simpl in Hy. rewrite Hc in Hy. done.
  - destruct (Hnx i c Hc) as (o&Ho&Ha).
    destruct (succ_next_yields Q nx Hnx i o) as (l&Hy&Hl).
    { destruct o as [j|].
      - destruct Ho as (H1&H2&H3). split; [lia|]. split; [done|]. intros k x Hk Hkx.
        destruct (decide (k = i)) as [->|]; [congruence|]. eapply H3; [|done]. lia.
      - intros k x Hk Hkx. destruct (decide (k = i)) as [->|]; [congruence|]. eapply Ho; [|done]. lia. }
    exists (at_ o), l. split; [|done]. by rewrite Ha.
Qed.

Lemma siblings_yields d i c :
  cursor_at root (p ++ [i]) = Some c ->
  exists l, yields (siblings_next d) (Some c) l /\
    at_children root p (i :: match d with Next => sel_from is_node cs (S i) | Prev => sel_below is_node cs i end) l.
Proof using H0 Hwf.
  intros Hc. destruct d.
  - destruct (next_sibling_at' root Hwf p i c c0 Hc H0) as (o&Ho&Ha).
    destruct (succ_next_yields is_node next_sibling
      (fun i c Hc => next_sibling_at' root Hwf p i c c0 Hc H0) _ _ Ho) as (l&Hy&Hl).
    exists (c :: l). split; [|by constructor]. eapply yields_cons; [|exact Hy]. simpl. by rewrite Ha.
  - destruct (prev_sibling_at' root Hwf p i c c0 Hc H0) as (o&Ho&Ha).
    destruct (succ_prev_yields is_node prev_sibling
      (fun i c Hc => prev_sibling_at' root Hwf p i c c0 Hc H0) _ _ Ho) as (l&Hy&Hl).
    exists (c :: l). split; [|by constructor]. eapply yields_cons; [|exact Hy]. simpl. by rewrite Ha.
Qed.
Lemma siblings_with_tokens_yields d i c :
  cursor_at root (p ++ [i]) = Some c ->
  exists l, yields (siblings_with_tokens_next d) (Some c) l /\
    at_children root p (i :: match d with Next => sel_from any cs (S i) | Prev => sel_below any cs i end) l.
Proof using H0 Hwf.
  intros Hc. destruct d.
  - destruct (next_sibling_or_token_ans i c Hc) as (o&Ho&Ha).
    destruct (succ_next_yields any next_sibling_or_token next_sibling_or_token_ans _ _ Ho) as (l&Hy&Hl).
    exists (c :: l). split; [|by constructor]. eapply yields_cons; [|exact Hy]. simpl. by rewrite Ha.
  - destruct (prev_sibling_or_token_ans i c Hc) as (o&Ho&Ha).
    destruct (succ_prev_yields any prev_sibling_or_token prev_sibling_or_token_ans _ _ Ho) as (l&Hy&Hl).
    exists (c :: l). split; [|by constructor]. eapply yields_cons; [|exact Hy]. simpl. by rewrite Ha.
Qed.
End iter.

(** ancestors: all prefixes of the position, longest first *)
Fixpoint prefixes_rev (p : pos) : list pos :=
  match p with
  | [] => [[]]
  | i :: p' => map (cons i) (prefixes_rev p') ++ [[]]
  end.
Lemma prefixes_rev_snoc p i : prefixes_rev (p ++ [i]) = (p ++ [i]) :: prefixes_rev p.
Proof. induction p as [|j p IH]; simpl; [done|]. by rewrite IH. Qed.
Lemma prefixes_rev_elem p q : q ∈ prefixes_rev p <-> ancestor_or_self q p.
Proof.
  revert q. induction p as [|i p IH]; intros q; simpl.
  - rewrite elem_of_list_singleton. split; [intros ->; by exists []|]. intros [r H]. by destruct q.
  - rewrite elem_of_app, elem_of_list_singleton. split.
    + intros [H| ->]; [|by exists (i :: p)]. apply elem_of_list_fmap in H as (q'&->&Hq). apply IH in Hq as [r ->]. by exists r.
    + intros [r H]. destruct q as [|j q]; [by right|]. left. injection H as <- ->.
      apply elem_of_list_fmap. exists q. split; [done|]. apply IH. by exists r.
Qed.
Lemma ancestors_yields root p c :
  cursor_at root p = Some c ->
  exists l, yields ancestors_next (Some c) l /\ Forall2 (fun q c => cursor_at root q = Some c) (prefixes_rev p) l.
Proof.
  revert c. induction p as [|i p IH] using rev_ind; intros c Hc.
  - injection Hc as <-. exists [CRoot root]. split; [|by repeat constructor].
    eapply yields_cons; [done|]. by eapply yields_nil.
  - apply cursor_at_snoc_inv in Hc as Hs. destruct Hs as (c0&ch&H0&_&Hs).
    destruct (IH c0 H0) as (l&Hy&Hl). exists (c :: l). rewrite prefixes_rev_snoc. split; [|by constructor].
    subst c. eapply yields_cons; [done|exact Hy].
Qed.

(** [collect] with enough fuel gives what the iterator yields *)
Lemma yields_collect {S A} (next : iter S A) s l fuel :
  yields next s l -> length l < fuel -> collect next fuel s = Ok l.
Proof.
  intros H. revert fuel. induction H as [s s' H1 H2|s a s' l H1 _ IH]; intros fuel Hf; simpl in Hf.
  - destruct fuel; [lia|]. simpl. by rewrite H1.
  - destruct fuel; [lia|]. simpl. rewrite H1. simpl. rewrite IH by lia. done.
Qed.
Lemma yields_det {S A} (next : iter S A) s l1 l2 : yields next s l1 -> yields next s l2 -> l1 = l2.
Proof.
  intros H. revert l2. induction H as [s s' H1 H2|s a s' l H1 _ IH]; intros l2 Hy2.
  - inversion Hy2; [done|congruence].
  - inversion Hy2 as [|? ? s2 ? H3 H4]; [congruence|]. rewrite H1 in H3. injection H3 as <- <-. f_equal. by apply IH.
Qed.
Lemma sel_go_any_length {A} i (l : list A) : sel_go any i l = seq i (length l).
Proof. revert i. induction l as [|x l IH]; intros i; simpl; [done|]. by rewrite IH. Qed.
Lemma sel_from_any {A} (l : list A) lo : sel_from any l lo = seq lo (length l - lo).
Proof. unfold sel_from. by rewrite sel_go_any_length, drop_length. Qed.
Lemma sel_go_length {A} P i (l : list A) : length (sel_go P i l) <= length l.
Proof. revert i. induction l as [|x l IH]; intros i; simpl; [done|]. specialize (IH (S i)). destruct (P x); simpl; lia. Qed.

Lemma children_with_tokens_at root p c :
  wfg root -> cursor_at root p = Some c ->
  exists l, children_with_tokens c = Ok l /\ at_children root p (seq 0 (length (gchildren (c_green c)))) l.
Proof.
  intros Hwf H. destruct (children_with_tokens_yields root Hwf p c H) as (l&Hy&Hl).
  rewrite sel_from_any, Nat.sub_0_r, length_erase_children in Hl.
  exists l. split; [|done]. eapply yields_collect; [exact Hy|].
  apply Forall2_length in Hl. rewrite seq_length in Hl. lia.
Qed.
Lemma children_at root p c :
  wfg root -> cursor_at root p = Some c ->
  exists l, children c = Ok l /\ at_children root p (sel_from is_node (tchildren (erase (c_green c))) 0) l.
Proof.
  intros Hwf H. destruct (children_yields root Hwf p c H) as (l&Hy&Hl).
  exists l. split; [|done]. eapply yields_collect; [exact Hy|].
  apply Forall2_length in Hl. pose proof (sel_go_length is_node 0 (drop 0 (tchildren (erase (c_green c))))) as Hs.
  unfold sel_from in Hl. rewrite drop_0 in Hs, Hl. rewrite length_erase_children in Hs. lia.
Qed.
