(** * Moving children about: detaching several, putting one back *)
From Verif Require Export ScriptRun.

(** ** Lists without the elements at some indices *)
(** proof device, no counterpart in the code *)
Fixpoint without_from {A} (o : nat) (is : list nat) (cs : list A) : list A :=
  match cs with
  | [] => []
  | c :: cs' => if bool_decide (o ∈ is) then without_from (S o) is cs' else c :: without_from (S o) is cs'
  end.
(** the elements of [cs] whose index is not in [is] *)
Definition without {A} (is : list nat) (cs : list A) : list A := without_from 0 is cs.
(** how many of [is] are below [j] *)
Definition below (is : list nat) (j : nat) : nat := length (List.filter (fun i => i <? j) is).
(** the index of [j] after [i] has gone *)
Definition closed_up (i j : nat) : nat := if i <? j then pred j else j.

Lemma elem_closed_up i rest o : i ∉ rest -> i <= o -> o ∈ map (closed_up i) rest <-> S o ∈ rest.
Proof.
  intros Hi Ho. rewrite (elem_of_list_fmap (closed_up i)). unfold closed_up. split.
  - intros (j&->&Hj). destruct (Nat.ltb_spec i j); [by rewrite Nat.succ_pred_pos by lia|]. exfalso. apply Hi. by replace i with j by lia.
  - intros Hj. exists (S o). split; [|done]. destruct (Nat.ltb_spec i (S o)); [done|lia].
Qed.
Lemma elem_closed_up_lt i rest o : i ∉ rest -> o < i -> o ∈ map (closed_up i) rest <-> o ∈ rest.
Proof.
  intros Hi Ho. rewrite (elem_of_list_fmap (closed_up i)). unfold closed_up. split.
  - intros (j&->&Hj). destruct (Nat.ltb_spec i j); [lia|done].
  - intros Hj. exists o. split; [|done]. destruct (Nat.ltb_spec i o); [lia|done].
Qed.
Lemma without_past {A} i rest (cs : list A) o : i ∉ rest -> i <= o -> without_from o (map (closed_up i) rest) cs = without_from (S o) (i :: rest) cs.
Proof.
  intros Hi. revert o. induction cs as [|c cs IH]; intros o Ho; simpl; [done|]. rewrite IH by lia.
  erewrite bool_decide_ext; [done|]. rewrite elem_closed_up, elem_of_cons by done. split; [auto|]. intros [?|?]; [lia|done].
Qed.
Lemma without_delete {A} i rest (cs : list A) o : i ∉ rest -> o <= i ->
  without_from o (map (closed_up i) rest) (take (i - o) cs ++ drop (S (i - o)) cs) = without_from o (i :: rest) cs.
Proof.
  intros Hi. revert o. induction cs as [|c cs IH]; intros o Ho; [by destruct (i - o)|].
  destruct (Nat.eq_dec o i) as [->|Hne].
  - rewrite Nat.sub_diag. cbn [take drop app without_from]. rewrite bool_decide_eq_true_2 by left. rewrite drop_0. by apply without_past.
  - replace (i - o) with (S (i - S o)) by lia. cbn [take drop app without_from]. rewrite IH by lia.
    erewrite (bool_decide_ext (o ∈ map (closed_up i) rest) (o ∈ i :: rest)); [done|]. rewrite elem_closed_up_lt, elem_of_cons by (done || lia). split; [auto|]. intros [?|?]; [lia|done].
Qed.
Lemma without_nil {A} (cs : list A) o : without_from o [] cs = cs.
Proof. revert o. induction cs as [|c cs IH]; intros o; simpl; [done|]. by rewrite IH. Qed.
Lemma below_closed_up i rest j : i ∉ rest -> j <> i -> j ∉ rest -> closed_up i j - below (map (closed_up i) rest) (closed_up i j) = j - below (i :: rest) j.
Proof.
  intros Hi Hji Hj. assert (E : below (map (closed_up i) rest) (closed_up i j) = below rest j).
  { unfold below. induction rest as [|a rest IH]; [done|]. apply not_elem_of_cons in Hi as [Hia Hi]. apply not_elem_of_cons in Hj as [Hja Hj].
    cbn [map List.filter]. assert (Ea : (closed_up i a <? closed_up i j) = (a <? j)).
    { unfold closed_up. destruct (Nat.ltb_spec i a), (Nat.ltb_spec i j), (Nat.ltb_spec a j);
        repeat match goal with |- context [?x <? ?y] => destruct (Nat.ltb_spec x y) end; try done; lia. }
    rewrite Ea. destruct (a <? j); cbn [length]; by rewrite IH. }
  rewrite E. unfold below at 2. cbn [List.filter]. unfold closed_up. destruct (Nat.ltb_spec i j); cbn [length]; unfold below; lia.
Qed.

(** ** Detaching some of the children of a node, in any order *)
Lemma detach_many us : forall is st n t p k cs, s_trees st !! n = Some (true, t) -> tsub t p = Some (Node k cs) ->
  Forall2 (fun u i => exists y, holds st u n true t (p ++ [i]) y) us is -> NoDup is ->
  let x' := Node k (without is cs) in
  exists st' os, s_run (map ODetach us) st = SOk (st', os) /\
    s_trees st' !! n = Some (true, treplace t p x') /\
    (forall v j r c y, j ∈ is -> cs !! j = Some c -> holds st v n true t (p ++ j :: r) y -> exists n', holds st' v n' true c r y) /\
    (forall v j r y, j ∉ is -> holds st v n true t (p ++ j :: r) y -> holds st' v n true (treplace t p x') (p ++ (j - below is j) :: r) y) /\
    (forall v q y, (forall j r, q <> p ++ j :: r) -> holds st v n true t q y ->
       holds st' v n true (treplace t p x') q (match strip q p with Some r => treplace y r x' | None => y end)) /\
    (forall v n2 m2 t2 q y, n2 <> n -> holds st v n2 m2 t2 q y -> holds st' v n2 m2 t2 q y).
Proof.
  induction us as [|u us IH]; intros is st n t p k cs Hn Hp Hus Hnd x'.
  - inversion Hus; subst. exists st, []. assert (Ex : x' = Node k cs) by (subst x'; unfold without; by rewrite without_nil).
    rewrite Ex. rewrite (treplace_id t p _ Hp). split_and!; try done.
    + intros v j r c y Hj. by apply elem_of_nil in Hj.
    + intros v j r y _ H. unfold below. simpl. by rewrite Nat.sub_0_r.
    + intros v q y _ H. destruct (strip q p) as [r|] eqn:E; [|done]. apply strip_some in E as ->. destruct H as (H1&H2&H3). split_and!; try done.
      rewrite (treplace_id y r); [done|]. by rewrite tsub_app, H3 in Hp.
  - inversion Hus as [|? i ? rest [y Hu] Hrest]; subst. apply NoDup_cons in Hnd as [Hi Hnd].
    pose proof Hu as (_&_&Hy). pose proof Hy as Hci. rewrite tsub_app, Hp in Hci. simpl in Hci. destruct (cs !! i) as [ci|] eqn:Eci; [|done]. injection Hci as ->.
    set (cs1 := take i cs ++ drop (S i) cs). set (st1 := after_detach n p i t y st).
    assert (Ht1 : tdelete_child t p i = treplace t p (Node k cs1)) by (by apply tdelete_eq).
    assert (Hrem : forall j r, j <> i -> pos_removed p i (p ++ j :: r) = inr (p ++ closed_up i j :: r)).
    { intros j r Hj. unfold pos_removed. rewrite strip_app. destruct (Nat.eqb_spec j i); [done|]. done. }
    assert (Hmv : forall v j r z, j <> i -> holds st v n true t (p ++ j :: r) z -> holds st1 v n true (tdelete_child t p i) (p ++ closed_up i j :: r) z).
    { intros v j r z Hj Hv. pose proof (holds_detach_rest st n p i t y v _ _ z Hn Hy Hv (Hrem j r Hj)) as H.
      destruct (strip (p ++ j :: r) p) as [w|] eqn:Es; [|done]. apply strip_some in Es. exfalso. apply (f_equal length) in Es. rewrite !app_length in Es. simpl in Es. lia. }
    assert (Hn1 : s_trees st1 !! n = Some (true, tdelete_child t p i)).
    { unfold st1, after_detach. cbn [s_trees]. rewrite lookup_app_l by (rewrite insert_length; by eapply lookup_lt_Some). apply list_lookup_insert. by eapply lookup_lt_Some. }
    assert (Hp1 : tsub (tdelete_child t p i) p = Some (Node k cs1)). { rewrite Ht1. by eapply treplace_sub. }
    destruct (IH (map (closed_up i) rest) st1 n _ p k cs1 Hn1 Hp1) as (st'&os&Hr&HT&HA&HB&HC&HD).
    + clear -Hrest Hi Hmv. induction Hrest as [|v j us rest [z Hz] _ IH]; simpl; constructor.
      * exists z. apply Hmv; [|done]. intros ->. apply Hi. left.
      * apply IH. intros Hx. apply Hi. by right.
    + clear -Hnd Hi. induction Hnd as [|j rest Hj _ IH]; simpl; constructor.
      * intros Hx. apply Hj. apply (elem_of_list_fmap (closed_up i)) in Hx as (a&E&Ha). replace j with a; [done|].
        assert (a <> i) by (intros ->; apply Hi; by right). assert (j <> i) by (intros ->; apply Hi; left).
        unfold closed_up in E. destruct (Nat.ltb_spec i a), (Nat.ltb_spec i j); lia.
      * apply IH. intros Hx. apply Hi. by right.
    + assert (Ex : without (map (closed_up i) rest) cs1 = without (i :: rest) cs).
      { unfold without, cs1. pose proof (without_delete i rest cs 0 Hi ltac:(lia)) as H. rewrite Nat.sub_0_r in H. exact H. }
      rewrite Ex in HT, HB, HC. fold x' in HT, HB, HC.
      assert (Et : treplace (tdelete_child t p i) p x' = treplace t p x') by (rewrite Ht1; apply treplace_twice). rewrite Et in HT, HB, HC.
      exists st', (None :: os). split_and!.
      * cbn [map s_run]. rewrite (step_detach st u n t p i y Hu). cbn [mbind sres_bind]. fold st1. rewrite Hr. done.
      * done.
      * intros v j r c z Hj Hc Hv. destruct (Nat.eq_dec j i) as [->|Hne].
        -- rewrite Eci in Hc. injection Hc as <-. pose proof (holds_detach_below st n p i t y v r z Hn Hy Hv) as H. fold st1 in H.
           exists (length (s_trees st)). apply HD; [|done]. apply lookup_lt_Some in Hn. lia.
        -- apply elem_of_cons in Hj as [?|Hj]; [done|]. apply (HA v (closed_up i j) r c z); [by apply elem_of_list_fmap_1| |by apply Hmv].
           unfold cs1, closed_up. destruct (Nat.ltb_spec i j).
           ++ rewrite lookup_app_r by (rewrite take_length; lia). rewrite take_length, lookup_drop. rewrite <- Hc. f_equal. apply lookup_lt_Some in Eci. lia.
           ++ rewrite lookup_app_l by (rewrite take_length; apply lookup_lt_Some in Hc; lia). rewrite lookup_take by lia. done.
      * intros v j r z Hj Hv. apply not_elem_of_cons in Hj as [Hji Hj]. rewrite <- (below_closed_up i rest j Hi Hji Hj). apply HB; [|by apply Hmv].
        intros Hx. apply (elem_of_list_fmap (closed_up i)) in Hx as (a&E&Ha). apply Hj. replace j with a; [done|].
        assert (a <> i) by (intros ->; done). unfold closed_up in E. destruct (Nat.ltb_spec i a), (Nat.ltb_spec i j); lia.
      * intros v q z Hq Hv. assert (Hqr : pos_removed p i q = inr q).
        { unfold pos_removed. destruct (strip p q) as [[|j r]|] eqn:Es; try done. apply strip_some in Es. by apply Hq in Es. }
        pose proof (holds_detach_rest st n p i t y v _ _ z Hn Hy Hv Hqr) as H. fold st1 in H. pose proof (HC v q _ Hq H) as H'.
        destruct (strip q p) as [r|] eqn:Es; [|done]. apply strip_some in Es as ->. rewrite (tdelete_eq z r i k cs) in H'.
        -- by rewrite treplace_twice in H'.
        -- destruct Hv as (_&_&Hz). by rewrite tsub_app, Hz in Hp.
      * intros v n2 m2 t2 q z Hne Hv. apply HD; [done|]. by apply holds_detach_other.
Qed.

(** ** Detaching an element and putting it back *)
Lemma insert_deleted t p i k cs x : tsub t p = Some (Node k cs) -> cs !! i = Some x -> tinsert_child (tdelete_child t p i) p i x = t.
Proof.
  intros Hp Hi. rewrite (tdelete_eq _ _ _ _ _ Hp). rewrite (tinsert_eq _ _ _ k (take i cs ++ drop (S i) cs)); [|by eapply treplace_sub]. rewrite treplace_twice.
  assert (Hl : length (take i cs) = i) by (rewrite take_length; apply lookup_lt_Some in Hi; lia).
  rewrite take_app_alt, drop_app_alt by done. rewrite (take_drop_middle cs i x Hi). by apply treplace_id.
Qed.
Lemma insert_deleted_pos p i q q' : pos_removed p i q = inr q' -> pos_inserted p i q' = q.
Proof.
  unfold pos_removed. destruct (strip p q) as [[|j r]|] eqn:E.
  - intros [= <-]. unfold pos_inserted. by rewrite E.
  - destruct (Nat.eqb_spec j i); [done|]. intros [= <-]. apply strip_some in E as ->. unfold pos_inserted. rewrite strip_app.
    destruct (Nat.ltb_spec i j).
    + destruct (Nat.leb_spec i (pred j)); [|lia]. by replace (S (pred j)) with j by lia.
    + destruct (Nat.leb_spec i j); [lia|done].
  - intros [= <-]. unfold pos_inserted. by rewrite E.
Qed.
Lemma detach_put_back st u s n t p i k cs x : holds st s n true t p (Node k cs) -> holds st u n true t (p ++ [i]) x -> (blen (ttext t) <= u32_max)%N ->
  exists st' os, s_run [ODetach u; OSplice s i i [u]] st = SOk (st', os) /\
    forall v n2 m2 t2 q y, v <> u -> holds st v n2 m2 t2 q y -> holds st' v n2 m2 t2 q y.
Proof.
  intros Hs Hu Hb. pose proof Hs as (_&Hn&Hp). pose proof Hu as (_&_&Hx). pose proof Hx as Hi. rewrite tsub_app, Hp in Hi. simpl in Hi.
  destruct (cs !! i) as [c|] eqn:Ei; [|done]. injection Hi as ->.
  pose proof (holds_detach_below st n p i t x u [] x Hn Hx Hu) as Hu1.
  pose proof (holds_detach_rest st n p i t x s p p _ Hn Hx Hs (pos_removed_self p i)) as Hs1.
  pose proof (strip_app p []) as Es. rewrite app_nil_r in Es. rewrite Es in Hs1. cbn [tdelete_child tsub treplace] in Hs1.
  set (st1 := after_detach n p i t x st) in *. pose proof (lookup_lt_Some _ _ _ Hn) as Hlt.
  assert (Hback : tinsert_child (tdelete_child t p i) p i x = t) by (by eapply insert_deleted).
  assert (Hi' : i <= length (take i cs ++ drop (S i) cs)). { rewrite app_length, take_length. apply lookup_lt_Some in Ei. lia. }
  assert (Hst : s_step (OSplice s i i [u]) st1 = SOk (del_handle u (after_attach n p i (length (s_trees st)) true (tdelete_child t p i) x st1), None)).
  { eapply step_attach; [exact Hs1|exact Hu1|lia|exact Hi'|by rewrite Hback]. }
  eexists _, _. split.
  { cbn [s_run]. rewrite (step_detach st u n t p i x Hu). cbn [mbind sres_bind]. fold st1. rewrite Hst. reflexivity. }
  intros v n2 m2 t2 q y Hv H. destruct (Nat.eq_dec n2 n) as [->|Hne].
  - pose proof H as (_&Ht&_). rewrite Hn in Ht. injection Ht as <- <-. pose proof Hs1 as (_&Hn1&Hp1).
    destruct (pos_removed p i q) as [r|q'] eqn:Eq.
    + apply pos_removed_inl in Eq as ->. pose proof (holds_detach_below st n p i t x v r y Hn Hx H) as H1. fold st1 in H1.
      pose proof (holds_attach_new st1 n p i (length (s_trees st)) _ x _ _ u v r y Hv ltac:(lia) Hn1 Hp1 Hi' H1) as H2. by rewrite Hback in H2.
    + pose proof (holds_detach_rest st n p i t x v q q' y Hn Hx H Eq) as H1. fold st1 in H1.
      pose proof (holds_attach_same st1 n p i (length (s_trees st)) _ x _ _ u v q' _ Hv Hn1 Hp1 Hi' H1) as H2. rewrite Hback, (insert_deleted_pos _ _ _ _ Eq) in H2.
      destruct H2 as (A&B&C). split_and!; [done|done|]. exact (proj2 (proj2 H)).
  - apply holds_attach_other; [done|done| |by apply holds_detach_other]. pose proof H as (_&Ht&_). apply lookup_lt_Some in Ht. lia.
Qed.

(** ** Children collected first *)
Lemma sel_go_ge {A} (P : A -> bool) l i j : j ∈ sel_go P i l -> i <= j.
Proof.
  revert i. induction l as [|x l IH]; intros i; simpl; [by intros ?%elem_of_nil|]. destruct (P x).
  - intros [->|H]%elem_of_cons; [done|]. apply IH in H. lia.
  - intros H. apply IH in H. lia.
Qed.
Lemma sel_go_NoDup {A} (P : A -> bool) l i : NoDup (sel_go P i l).
Proof.
  revert i. induction l as [|x l IH]; intros i; simpl; [constructor|]. destruct (P x); [|done]. constructor; [|done]. intros H%sel_go_ge. lia.
Qed.
Lemma without_sel_go {A} (P : A -> bool) l i pre : (forall j, j ∈ pre -> j < i) ->
  without_from i (pre ++ sel_go P i l) l = List.filter (fun x => negb (P x)) l.
Proof.
  revert i pre. induction l as [|x l IH]; intros i pre Hpre; [done|]. cbn [without_from sel_go List.filter]. destruct (P x) eqn:E; cbn [negb].
  - rewrite bool_decide_eq_true_2 by (apply elem_of_app; right; left). rewrite <- (IH (S i) (pre ++ [i])).
    + by rewrite <- app_assoc.
    + intros j [H%Hpre|H%elem_of_list_singleton]%elem_of_app; lia.
  - rewrite bool_decide_eq_false_2.
    + rewrite IH; [done|]. intros j H%Hpre. lia.
    + intros [H%Hpre|H%sel_go_ge]%elem_of_app; lia.
Qed.
Lemma without_sel {A} (P : A -> bool) l : without (sel_from P l 0) l = List.filter (fun x => negb (P x)) l.
Proof. unfold without, sel_from. rewrite drop_0. apply (without_sel_go P l 0 []). by intros j Hj%elem_of_nil. Qed.
