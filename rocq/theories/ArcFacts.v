(** * Facts about reference counting *)
From Verif Require Export Arc.

(** proof device, no counterpart in the code *)
Global Instance hstate_eq_dec : EqDecision hstate.
Proof. solve_decision. Defined.

(** ** Counting *)
(** proof device, no counterpart in the code *)
Fixpoint cnt {A} (P : A -> bool) (l : list A) : nat :=
  match l with [] => 0 | x :: l => (if P x then 1 else 0) + cnt P l end.
Lemma cnt_app {A} (P : A -> bool) l k : cnt P (l ++ k) = cnt P l + cnt P k.
Proof. induction l; simpl; lia. Qed.
Lemma cnt_insert {A} (P : A -> bool) l i x y :
  l !! i = Some x -> cnt P (<[i:=y]> l) + (if P x then 1 else 0) = cnt P l + (if P y then 1 else 0).
Proof.
  revert i. induction l as [|z l IH]; intros [|i] H; try done; simpl in *.
  - injection H as ->. lia.
  - specialize (IH i H). lia.
Qed.
Lemma cnt_pos {A} (P : A -> bool) l i x : l !! i = Some x -> P x = true -> 1 <= cnt P l.
Proof.
  revert i. induction l as [|z l IH]; intros [|i] H HP; try done; simpl in *.
  - injection H as ->. rewrite HP. lia.
  - specialize (IH i H HP). lia.
Qed.
Lemma cnt_two {A} (P : A -> bool) l i j x y :
  l !! i = Some x -> l !! j = Some y -> P x = true -> P y = true -> i <> j -> 2 <= cnt P l.
Proof.
  revert i j. induction l as [|z l IH]; intros [|i] [|j] Hi Hj HP HQ Hne; try done; simpl in *.
  - injection Hi as ->. rewrite HP. pose proof (cnt_pos P l j y Hj HQ). lia.
  - injection Hj as ->. rewrite HQ. pose proof (cnt_pos P l i x Hi HP). lia.
  - specialize (IH i j Hi Hj HP HQ). assert (i <> j) by congruence. specialize (IH H). lia.
Qed.
Lemma cnt_le {A} (P : A -> bool) l : cnt P l <= length l.
Proof. induction l as [|x l IH]; simpl; [lia|]. destruct (P x); lia. Qed.
Lemma cnt_zero {A} (P : A -> bool) l : cnt P l = 0 <-> forall i x, l !! i = Some x -> P x = false.
Proof.
  split.
  - intros H i x Hi. destruct (P x) eqn:E; [|done]. pose proof (cnt_pos P l i x Hi E). lia.
  - intros H. induction l as [|x l IH]; [done|]. simpl. rewrite (H 0 x eq_refl), IH; [done|]. intros i y Hi. by apply (H (S i)).
Qed.

(** proof device, no counterpart in the code *)
Definition counted (x : hstate * nat) : bool := match x.1 with Live | Borrowed => true | _ => false end.
(** proof device, no counterpart in the code *)
Definition forgotten (x : hstate * nat) : bool := match x.1 with Forgotten => true | _ => false end.
(** proof device, no counterpart in the code *)
Definition cloning (x : thread) : bool := match t_pend x with Cloning _ _ => true | _ => false end.
(** proof device, no counterpart in the code *)
Definition overflowing (x : thread) : bool := match t_pend x with Cloning old _ => (max_refcount <? old)%N | _ => false end.
(** proof device, no counterpart in the code *)
Definition nL (st : ast) := cnt counted (hs st).
(** proof device, no counterpart in the code *)
Definition nF (st : ast) := cnt forgotten (hs st).
(** proof device, no counterpart in the code *)
Definition nP (st : ast) := cnt cloning (thr st).
(** proof device, no counterpart in the code *)
Definition nO (st : ast) := cnt overflowing (thr st).

Lemma sees_spec P V l : sees P V l = true <-> forall i e, l !! i = Some e -> P e = true -> i ∈ V.
Proof.
  unfold sees. rewrite forallb_forall. split.
  - intros H i e Hi HP. specialize (H (i, e)). simpl in H. rewrite HP in H. simpl in H.
    apply (bool_decide_eq_true_1 (i ∈ V)), H, elem_of_list_In, elem_of_lookup_imap. eauto.
  - intros H [i e] Hin. apply elem_of_list_In, elem_of_lookup_imap in Hin as (j&x&[= -> ->]&Hj). simpl.
    destruct (P x) eqn:E; simpl; [|done]. apply bool_decide_eq_true_2. by eapply H.
Qed.
Lemma readable_spec st V i : readable st V i = true <-> forall j m, msgs st !! j = Some m -> i < j -> m_ev m ∉ V.
Proof.
  unfold readable. rewrite forallb_forall. split.
  - intros H j m Hj Hlt Hin. specialize (H m). rewrite bool_decide_true in H by done.
    assert (negb true = true); [|done]. apply H. apply elem_of_list_In, elem_of_list_lookup. exists (j - S i). rewrite lookup_drop. by replace (S i + (j - S i)) with j by lia.
  - intros H m Hin. apply elem_of_list_In, elem_of_list_lookup in Hin as (k&Hk). rewrite lookup_drop in Hk.
    rewrite bool_decide_false; [done|]. apply (H _ _ Hk). lia.
Qed.
Lemma shared_ok_spec st V h :
  shared_ok st V h = true <-> exists c, hs st !! h = Some (Live, c) /\ c ∈ V /\
    forall i e, evs st !! i = Some e -> e_h e = h -> is_excl (e_kind e) = true -> i ∈ V.
Proof.
  unfold shared_ok. destruct (hs st !! h) as [[[] c]|]; try (split; [done|intros (?&[=]&_)]).
  rewrite andb_true_iff, bool_decide_eq_true, sees_spec. split.
  - intros [? H]. exists c. split_and!; try done. intros i e Hi <- Hk. apply (H i e Hi). by rewrite Nat.eqb_refl, Hk.
  - intros (c'&[= <-]&?&H). split; [done|]. intros i e Hi [E%Nat.eqb_eq ?]%andb_true_iff. by eapply H.
Qed.
Lemma excl_ok_spec st V h :
  excl_ok st V h = true <-> exists c, hs st !! h = Some (Live, c) /\ c ∈ V /\
    forall i e, evs st !! i = Some e -> e_h e = h -> i ∈ V.
Proof.
  unfold excl_ok. destruct (hs st !! h) as [[[] c]|]; try (split; [done|intros (?&[=]&_)]).
  rewrite andb_true_iff, bool_decide_eq_true, sees_spec. split.
  - intros [? H]. exists c. split_and!; try done. intros i e Hi <-. apply (H i e Hi). by rewrite Nat.eqb_refl.
  - intros (c'&[= <-]&?&H). split; [done|]. intros i e Hi E%Nat.eqb_eq. by eapply H.
Qed.

(** ** The shape of a step *)
(** all that a step can do, in one form; each action fixes the parts *)
Inductive shape (st st' : ast) : act -> Prop :=
| sh_sync t1 t2 x y : thr st !! t1 = Some x -> thr st !! t2 = Some y ->
    st' = set_thr t2 (TH (t_view y ∪ t_view x) (t_pend y)) st -> shape st st' (ASync t1 t2)
| sh_clone_add t h V m : thr st !! t = Some (TH V Idle) -> shared_ok st V h = true -> last (msgs st) = Some m ->
    st' = set_thr t (TH (V ∪ {[length (evs st)]}) (Cloning (m_val m) (length (evs st))))
           (push_msg (MSG ((m_val m + 1) mod usize_wrap) (length (evs st)) (m_rel m))
             (push_ev (EV h KShared (V ∪ {[length (evs st)]})) true st)) -> shape st st' (ACloneAdd t h)
| sh_abort t V old e : thr st !! t = Some (TH V (Cloning old e)) -> (max_refcount < old)%N ->
    st' = AS (evs st) (msgs st) (hs st) (thr st) (freed st) (bad st) true -> shape st st' (ACloneCheck t)
| sh_clone_check t V old e : thr st !! t = Some (TH V (Cloning old e)) -> (old <= max_refcount)%N ->
    st' = set_thr t (TH V Idle) (push_hs (Live, e) st) -> shape st st' (ACloneCheck t)
| sh_read t h V : thr st !! t = Some (TH V Idle) -> shared_ok st V h = true ->
    st' = set_thr t (TH (V ∪ {[length (evs st)]}) Idle)
            (push_ev (EV h KShared (V ∪ {[length (evs st)]})) (sees (fun e => is_write (e_kind e)) V (evs st)) st) -> shape st st' (ARead t h)
| sh_get_mut_no t h i V m : thr st !! t = Some (TH V Idle) -> excl_ok st V h = true -> readable st V i = true -> msgs st !! i = Some m ->
    m_val m <> 1%N ->
    st' = set_thr t (TH (V ∪ {[length (evs st)]} ∪ m_rel m) Idle) (push_ev (EV h KShared (V ∪ {[length (evs st)]} ∪ m_rel m)) true st) ->
    shape st st' (AGetMut t h i)
| sh_get_mut t h i V m c : thr st !! t = Some (TH V Idle) -> excl_ok st V h = true -> readable st V i = true -> msgs st !! i = Some m ->
    m_val m = 1%N -> hs st !! h = Some (Live, c) ->
    st' = set_thr t (TH (V ∪ {[length (evs st)]} ∪ m_rel m) (Unique h))
            (set_hs h (Borrowed, c) (push_ev (EV h KShared (V ∪ {[length (evs st)]} ∪ m_rel m)) true st)) ->
    shape st st' (AGetMut t h i)
| sh_write t h V : thr st !! t = Some (TH V (Unique h)) ->
    st' = set_thr t (TH (V ∪ {[length (evs st)]}) (Unique h))
            (push_ev (EV h KWrite (V ∪ {[length (evs st)]})) (sees (fun _ => true) V (evs st)) st) -> shape st st' (AWrite t)
| sh_end_mut t h V c s : thr st !! t = Some (TH V (Unique h)) -> hs st !! h = Some (s, c) ->
    st' = set_thr t (TH V Idle) (set_hs h (Live, c) st) -> shape st st' (AEndMut t)
| sh_end_mut_none t h V : thr st !! t = Some (TH V (Unique h)) -> hs st !! h = None ->
    st' = set_thr t (TH V Idle) st -> shape st st' (AEndMut t)
| sh_drop_sub t h V m c : thr st !! t = Some (TH V Idle) -> excl_ok st V h = true -> last (msgs st) = Some m -> hs st !! h = Some (Live, c) ->
    st' = set_thr t (TH (V ∪ {[length (evs st)]}) (if (m_val m =? 1)%N then Dropping h else Idle))
           (set_hs h (Dropped, c)
             (push_msg (MSG ((m_val m + (usize_wrap - 1)) mod usize_wrap) (length (evs st)) (m_rel m ∪ (V ∪ {[length (evs st)]})))
               (push_ev (EV h KExcl (V ∪ {[length (evs st)]})) true st))) -> shape st st' (ADropSub t h)
| sh_drop_load t h i V m : thr st !! t = Some (TH V (Dropping h)) -> readable st V i = true -> msgs st !! i = Some m ->
    st' = set_thr t (TH (V ∪ {[length (evs st)]} ∪ m_rel m) Freeing) (push_ev (EV h KShared (V ∪ {[length (evs st)]} ∪ m_rel m)) true st) ->
    shape st st' (ADropLoad t i)
| sh_free t V : thr st !! t = Some (TH V Freeing) ->
    st' = AS (evs st) (msgs st) (hs st) (<[t:=TH V Idle]> (thr st)) (S (freed st))
           (bad st || negb (sees (fun _ => true) V (evs st)) || negb (freed st =? 0)) (aborted st) -> shape st st' (AFree t)
| sh_forget t h V c : thr st !! t = Some (TH V Idle) -> excl_ok st V h = true -> hs st !! h = Some (Live, c) ->
    st' = set_hs h (Forgotten, c) st -> shape st st' (AForget t h).

Lemma astep_shape a st st' : astep a st = Some st' -> aborted st = false /\ shape st st' a.
Proof.
  unfold astep. destruct (aborted st) eqn:Ea; [done|]. intros H. split; [done|].
  destruct a; simpl in H.
  - destruct (thr st !! t1) as [x|] eqn:E1; [|done]. destruct (thr st !! t2) as [y|] eqn:E2; [|done]. injection H as <-. by econstructor.
  - destruct (thr st !! t) as [[V []]|] eqn:E1; try done. simpl in H. unfold do_clone_add in H.
    destruct (shared_ok st V h) eqn:Eo; [|done]. simpl in H. destruct (last (msgs st)) as [m|] eqn:El; [|done]. injection H as <-. by econstructor.
  - destruct (thr st !! t) as [[V []]|] eqn:E1; try done. simpl in H. unfold do_clone_check in H.
    destruct (N.ltb_spec max_refcount old); injection H as <-; [by eapply sh_abort|by eapply sh_clone_check].
  - destruct (thr st !! t) as [[V []]|] eqn:E1; try done. simpl in H. unfold do_read in H.
    destruct (shared_ok st V h) eqn:Eo; [|done]. injection H as <-. by econstructor.
  - destruct (thr st !! t) as [[V []]|] eqn:E1; try done. simpl in H. unfold do_get_mut in H.
    destruct (excl_ok st V h) eqn:Eo; [|done]. destruct (readable st V i) eqn:Er; [|done]. cbv [negb andb] in H.
    destruct (msgs st !! i) as [m|] eqn:Em; [|done]. simpl in H. injection H as <-.
    destruct (N.eqb_spec (m_val m) 1); [|by eapply sh_get_mut_no].
    destruct (proj1 (excl_ok_spec _ _ _) Eo) as (c&Hc&_). eapply sh_get_mut; try done. unfold set_hstate. cbn [hs push_ev push_msg]. by rewrite Hc.
  - destruct (thr st !! t) as [[V []]|] eqn:E1; try done. simpl in H. injection H as <-. by econstructor.
  - destruct (thr st !! t) as [[V []]|] eqn:E1; try done. simpl in H. injection H as <-. unfold set_hstate.
    destruct (hs st !! h) as [[s c]|] eqn:Eh; [by eapply sh_end_mut|by eapply sh_end_mut_none].
  - destruct (thr st !! t) as [[V []]|] eqn:E1; try done. simpl in H. unfold do_drop_sub in H.
    destruct (excl_ok st V h) eqn:Eo; [|done]. simpl in H. destruct (last (msgs st)) as [m|] eqn:El; [|done]. injection H as <-.
    destruct (proj1 (excl_ok_spec _ _ _) Eo) as (c&Hc&_). eapply sh_drop_sub; try done. unfold set_hstate. cbn [hs push_ev push_msg]. by rewrite Hc.
  - destruct (thr st !! t) as [[V []]|] eqn:E1; try done. simpl in H. unfold do_drop_load in H.
    destruct (readable st V i) eqn:Er; [|done]. simpl in H. destruct (msgs st !! i) as [m|] eqn:Em; [|done]. injection H as <-. by econstructor.
  - destruct (thr st !! t) as [[V []]|] eqn:E1; try done. simpl in H. injection H as <-. by econstructor.
  - destruct (thr st !! t) as [[V []]|] eqn:E1; try done. simpl in H. destruct (excl_ok st V h) eqn:Eo; [|done]. injection H as <-.
    destruct (proj1 (excl_ok_spec _ _ _) Eo) as (c&Hc&_). eapply sh_forget; try done. unfold set_hstate. by rewrite Hc.
Qed.

(** ** Well-formedness *)
(** proof device, no counterpart in the code *)
Record invA (st : ast) : Prop := {
  a_view : forall t x e, thr st !! t = Some x -> e ∈ t_view x -> e < length (evs st);
  a_rel : forall i m e, msgs st !! i = Some m -> e ∈ m_rel m -> e < length (evs st);
  a_closed : forall t x e ev, thr st !! t = Some x -> e ∈ t_view x -> evs st !! e = Some ev -> e_view ev ⊆ t_view x;
  a_relclosed : forall i m e ev, msgs st !! i = Some m -> e ∈ m_rel m -> evs st !! e = Some ev -> e_view ev ⊆ m_rel m;
  a_evh : forall i ev, evs st !! i = Some ev -> e_h ev < length (hs st);
  a_msgev : forall i m, msgs st !! i = Some m -> m_ev m < length (evs st);
  a_cr : forall h s c, hs st !! h = Some (s, c) -> exists j m, msgs st !! j = Some m /\ m_ev m = c;
  a_crP : forall t V old e, thr st !! t = Some (TH V (Cloning old e)) -> exists j m, msgs st !! j = Some m /\ m_ev m = e;
  a_pend : forall t V h, thr st !! t = Some (TH V (Unique h)) \/ thr st !! t = Some (TH V (Dropping h)) -> h < length (hs st);
  a_msgs : msgs st <> [] }.

Lemma lookup_snoc_some {A} (x : A) l i y : (l ++ [x]) !! i = Some y <-> i < length l /\ l !! i = Some y \/ i = length l /\ x = y.
Proof.
  rewrite lookup_app_Some, list_lookup_singleton_Some. split.
  - intros [H|(H&H1&->)]; [left; split; [by eapply lookup_lt_Some|done]|right; split; [lia|done]].
  - intros [[_ H]|[-> ->]]; [by left|right]. split; [lia|]. split; [lia|done].
Qed.
Ltac lk := repeat match goal with
  | H : (_ ++ [_]) !! _ = Some _ |- _ => apply lookup_snoc_some in H as [[? H]|[? ?]]
  | H : <[_:=_]> _ !! _ = Some _ |- _ => apply list_lookup_insert_Some in H as [(?&?&?)|[? H]]
  | H : _ \/ _ |- _ => destruct H
  end; simplify_eq/=.
Ltac fields := unfold set_thr, set_hs, push_hs, push_msg, push_ev in *; cbn [evs msgs hs thr freed bad aborted] in *.
Ltac len := rewrite ?app_length, ?insert_length in *; simpl; try lia.
Ltac un := rewrite ?elem_of_union, ?elem_of_singleton in *.

Lemma lookup_app_ex {A} (l k : list A) (P : A -> Prop) : (exists j m, l !! j = Some m /\ P m) -> exists j m, (l ++ k) !! j = Some m /\ P m.
Proof. intros (j&m&Hj&HP). exists j, m. split; [|done]. by apply lookup_app_l_Some. Qed.
Lemma lookup_snoc_ex {A} (l : list A) x (P : A -> Prop) : P x -> exists j m, (l ++ [x]) !! j = Some m /\ P m.
Proof. intros HP. exists (length l), x. split; [|done]. by rewrite lookup_app_r, Nat.sub_diag. Qed.

Lemma last_elem {A} (l : list A) x : last l = Some x -> exists i, l !! i = Some x /\ S i = length l.
Proof. intros H. apply last_Some in H as [l' ->]. exists (length l'). rewrite lookup_app_r, Nat.sub_diag, app_length by lia. simpl. split; [done|lia]. Qed.

(** the primitive changes *)
Lemma invA_push_ev st h k V ok : invA st -> h < length (hs st) -> invA (push_ev (EV h k V) ok st).
Proof.
  intros [Iv Ir Ic Irc Ih Im Icr IcrP Ip Ine] Hh. constructor; fields; try done.
  - intros t x e Ht He. specialize (Iv t x e Ht He). len.
  - intros i m e Ht He. specialize (Ir i m e Ht He). len.
  - intros t x e ev Ht He Hev. lk; [by eapply Ic|]. specialize (Iv _ _ _ Ht He). lia.
  - intros i m e ev Ht He Hev. lk; [by eapply Irc|]. specialize (Ir _ _ _ Ht He). lia.
  - intros i ev Hev. lk; [by eapply Ih|done].
  - intros i m Hm. specialize (Im i m Hm). len.
Qed.
Lemma invA_push_msg st v e r : invA st -> e < length (evs st) -> (forall e, e ∈ r -> e < length (evs st)) ->
  (forall e ev, e ∈ r -> evs st !! e = Some ev -> e_view ev ⊆ r) -> invA (push_msg (MSG v e r) st).
Proof.
  intros [Iv Ir Ic Irc Ih Im Icr IcrP Ip Ine] He Hr Hc. constructor; fields; try done.
  - intros i m e' Hm He'. lk; [by eapply Ir|by apply Hr].
  - intros i m e' ev Hm He' Hev. lk; [by eapply Irc|by eapply Hc].
  - intros i m Hm. lk; [by eapply Im|done].
  - intros h s c Hh. apply lookup_app_ex. by eapply Icr.
  - intros t V old e' Ht. apply lookup_app_ex. by eapply IcrP.
  - by destruct (msgs st).
Qed.
Lemma invA_set_thr st t V p : invA st -> (forall e, e ∈ V -> e < length (evs st)) ->
  (forall e ev, e ∈ V -> evs st !! e = Some ev -> e_view ev ⊆ V) ->
  match p with
  | Cloning _ e => exists j m, msgs st !! j = Some m /\ m_ev m = e
  | Unique h | Dropping h => h < length (hs st)
  | _ => True
  end -> invA (set_thr t (TH V p) st).
Proof.
  intros [Iv Ir Ic Irc Ih Im Icr IcrP Ip Ine] HV HVc Hp. constructor; fields; try done.
  - intros t' x e Ht He. lk; [by apply HV|by eapply Iv].
  - intros t' x e ev Ht He Hev. lk; [by eapply HVc|by eapply Ic].
  - intros t' V' old e Ht. lk; [done|by eapply IcrP].
  - intros t' V' h [Ht|Ht]; lk; try done; eapply Ip; eauto.
Qed.
Lemma invA_set_hs st h s s' c : invA st -> hs st !! h = Some (s, c) -> invA (set_hs h (s', c) st).
Proof.
  intros [Iv Ir Ic Irc Ih Im Icr IcrP Ip Ine] Hh. constructor; fields; try done.
  - intros i ev Hi. rewrite insert_length. by eapply Ih.
  - intros h' s0 c0 H0. lk; by eapply Icr.
  - intros t V h' Ht. rewrite insert_length. by eapply Ip.
Qed.
Lemma invA_push_hs st s e : invA st -> (exists j m, msgs st !! j = Some m /\ m_ev m = e) -> invA (push_hs (s, e) st).
Proof.
  intros [Iv Ir Ic Irc Ih Im Icr IcrP Ip Ine] Hh. constructor; fields; try done.
  - intros i ev Hi. specialize (Ih i ev Hi). len.
  - intros h' s0 c0 H0. lk; [by eapply Icr|done].
  - intros t V h' Ht. specialize (Ip t V h' Ht). len.
Qed.
Lemma invA_misc st f b a : invA st -> invA (AS (evs st) (msgs st) (hs st) (thr st) f b a).
Proof. by intros []. Qed.
(** the view after an event of one's own *)
Lemma own_view_bound st t V p h k U ok : invA st -> thr st !! t = Some (TH V p) -> (forall e, e ∈ U -> e < length (evs st)) ->
  forall e, e ∈ V ∪ {[length (evs st)]} ∪ U -> e < length (evs (push_ev (EV h k (V ∪ {[length (evs st)]} ∪ U)) ok st)).
Proof. intros I Ht HU e He. fields. un. len. destruct He as [[He| ->]|He]; [specialize (a_view _ I _ _ _ Ht He); lia|lia|specialize (HU e He); lia]. Qed.
Lemma own_view_closed st t V p h k U ok : invA st -> thr st !! t = Some (TH V p) ->
  (forall e ev, e ∈ U -> evs st !! e = Some ev -> e_view ev ⊆ U) -> (forall e, e ∈ U -> e < length (evs st)) ->
  forall e ev, e ∈ V ∪ {[length (evs st)]} ∪ U -> evs (push_ev (EV h k (V ∪ {[length (evs st)]} ∪ U)) ok st) !! e = Some ev ->
  e_view ev ⊆ V ∪ {[length (evs st)]} ∪ U.
Proof.
  intros I Ht HU HUb e ev He Hev. fields. apply lookup_snoc_some in Hev as [[Hlt Hev]|[-> <-]]; [|done]. un. destruct He as [[He|He]|He].
  - pose proof (a_closed _ I _ _ _ _ Ht He Hev). set_solver.
  - lia.
  - specialize (HU e ev He Hev). set_solver.
Qed.
Lemma own_view_bound0 st t V p h k ok : invA st -> thr st !! t = Some (TH V p) ->
  forall e, e ∈ V ∪ {[length (evs st)]} -> e < length (evs (push_ev (EV h k (V ∪ {[length (evs st)]})) ok st)).
Proof. intros I Ht e He. fields. un. len. destruct He as [He| ->]; [specialize (a_view _ I _ _ _ Ht He); lia|lia]. Qed.
Lemma own_view_closed0 st t V p h k ok : invA st -> thr st !! t = Some (TH V p) ->
  forall e ev, e ∈ V ∪ {[length (evs st)]} -> evs (push_ev (EV h k (V ∪ {[length (evs st)]})) ok st) !! e = Some ev ->
  e_view ev ⊆ V ∪ {[length (evs st)]}.
Proof.
  intros I Ht e ev He Hev. fields. apply lookup_snoc_some in Hev as [[Hlt Hev]|[-> <-]]; [|done]. un. destruct He as [He|He].
  - pose proof (a_closed _ I _ _ _ _ Ht He Hev). set_solver.
  - lia.
Qed.

Lemma invA_step a st st' : invA st -> astep a st = Some st' -> invA st'.
Proof.
  intros I H. apply astep_shape in H as [_ H].
  assert (Hh : forall V h, shared_ok st V h = true -> h < length (hs st)) by (intros V h (c&Hc&_)%shared_ok_spec; by eapply lookup_lt_Some).
  assert (Hh' : forall V h, excl_ok st V h = true -> h < length (hs st)) by (intros V h (c&Hc&_)%excl_ok_spec; by eapply lookup_lt_Some).
  assert (Hl : forall m, last (msgs st) = Some m -> exists i, msgs st !! i = Some m) by (intros m (i&?&_)%last_elem; eauto).
  destruct H as [t1 t2 x [Vy py] H1 H2 ->|t h V m H1 H2 H3 ->|t V old e H1 H2 ->|t V old e H1 H2 ->|t h V H1 H2 ->
    |t h i V m H1 H2 H3 H4 H5 ->|t h i V m c H1 H2 H3 H4 H5 H6 ->|t h V H1 ->|t h V c s H1 H2 ->|t h V H1 H2 ->
    |t h V m c H1 H2 H3 H4 ->|t h i V m H1 H2 H3 ->|t V H1 ->|t h V c H1 H2 H3 ->]; cbn [t_view t_pend].
  - apply invA_set_thr; [done|..].
    + intros e. un. intros [He|He]; [exact (a_view _ I _ _ _ H2 He)|exact (a_view _ I _ _ _ H1 He)].
    + intros e ev. un. intros [He|He] Hev; [pose proof (a_closed _ I _ _ _ _ H2 He Hev)|pose proof (a_closed _ I _ _ _ _ H1 He Hev)]; set_solver.
    + destruct py; try done; [by eapply (a_crP _ I)|eapply (a_pend _ I); by left|eapply (a_pend _ I); by right].
  - destruct (Hl _ H3) as (i&Hi).
    assert (IE : invA (push_ev (EV h KShared (V ∪ {[length (evs st)]})) true st)) by (apply invA_push_ev; eauto).
    apply invA_set_thr; [apply invA_push_msg; [done|..]|..].
    + fields. len.
    + intros e He. fields. specialize (a_rel _ I _ _ _ Hi He). len.
    + intros e ev He Hev. eapply (a_relclosed _ IE i m); [exact Hi|done|exact Hev].
    + by eapply own_view_bound0.
    + by eapply own_view_closed0.
    + fields. by apply lookup_snoc_ex.
  - by apply invA_misc.
  - apply invA_set_thr; [apply invA_push_hs; [done|by eapply (a_crP _ I)]|..]; fields; [intros e0 He; exact (a_view _ I _ _ _ H1 He)|intros e0 ev He; exact (a_closed _ I _ _ _ _ H1 He)|done].
  - apply invA_set_thr; [apply invA_push_ev; eauto|by eapply own_view_bound0|by eapply own_view_closed0|done].
  - apply invA_set_thr; [apply invA_push_ev; eauto|eapply own_view_bound; eauto using a_rel|eapply own_view_closed; eauto using a_rel, a_relclosed|done].
  - apply invA_set_thr; [eapply invA_set_hs; [apply invA_push_ev; eauto|exact H6]|eapply own_view_bound; eauto using a_rel|eapply own_view_closed; eauto using a_rel, a_relclosed|].
    fields. rewrite insert_length. eauto.
  - assert (h < length (hs st)) by (eapply (a_pend _ I); by left).
    apply invA_set_thr; [apply invA_push_ev; eauto|by eapply own_view_bound0|by eapply own_view_closed0|done].
  - apply invA_set_thr; [by eapply invA_set_hs|..]; fields; [intros e0 He; exact (a_view _ I _ _ _ H1 He)|intros e0 ev He; exact (a_closed _ I _ _ _ _ H1 He)|done].
  - apply invA_set_thr; [done|..]; fields; [intros e0 He; exact (a_view _ I _ _ _ H1 He)|intros e0 ev He; exact (a_closed _ I _ _ _ _ H1 He)|done].
  - destruct (Hl _ H3) as (i&Hi).
    assert (IE : invA (push_ev (EV h KExcl (V ∪ {[length (evs st)]})) true st)) by (apply invA_push_ev; eauto).
    apply invA_set_thr; [eapply invA_set_hs; [apply invA_push_msg; [done|..]|exact H4]|..].
    + fields. len.
    + intros e He. rewrite elem_of_union in He. destruct He as [He|He].
      * fields. specialize (a_rel _ I _ _ _ Hi He). len.
      * by eapply own_view_bound0.
    + intros e ev He Hev. rewrite elem_of_union in He. destruct He as [He|He].
      * pose proof (a_relclosed _ IE i m e ev Hi He Hev). set_solver.
      * pose proof (own_view_closed0 _ _ _ _ h KExcl true I H1 e ev He Hev). set_solver.
    + by eapply own_view_bound0.
    + by eapply own_view_closed0.
    + fields. rewrite insert_length. destruct (m_val m =? 1)%N; eauto.
  - assert (h < length (hs st)) by (eapply (a_pend _ I); by right).
    apply invA_set_thr; [apply invA_push_ev; eauto|eapply own_view_bound; eauto using a_rel|eapply own_view_closed; eauto using a_rel, a_relclosed|done].
  - apply (invA_misc (set_thr t (TH V Idle) st)). apply invA_set_thr; [done|..]; [intros e0 He; exact (a_view _ I _ _ _ H1 He)|intros e0 ev He; exact (a_closed _ I _ _ _ _ H1 He)|done].
  - by eapply invA_set_hs.
Qed.

(** ** Counts and phases *)
(** proof device, no counterpart in the code *)
Definition dropping (x : thread) : bool := match t_pend x with Dropping _ | Freeing => true | _ => false end.
(** proof device, no counterpart in the code *)
Definition total (st : ast) : nat := nL st + nP st + nF st.
(** proof device, no counterpart in the code *)
Record invB (T : nat) (st : ast) : Prop := {
  b_len : length (thr st) = T;
  b_count : forall m, last (msgs st) = Some m -> m_val m = N.of_nat (total st);
  b_bound : (N.of_nat (total st) <= 2 ^ 63 + N.of_nat (nO st))%N;
  b_uniq : forall t V h, thr st !! t = Some (TH V (Unique h)) -> (exists c, hs st !! h = Some (Borrowed, c)) /\ nL st = 1 /\ nP st = 0 /\ nF st = 0;
  b_uniq1 : forall t t' V V' h h', thr st !! t = Some (TH V (Unique h)) -> thr st !! t' = Some (TH V' (Unique h')) -> t = t';
  b_drop : forall t x, thr st !! t = Some x -> dropping x = true -> total st = 0 /\ freed st = 0;
  b_drop1 : forall t t' x x', thr st !! t = Some x -> thr st !! t' = Some x' -> dropping x = true -> dropping x' = true -> t = t';
  b_freed : freed st <= 1 /\ (freed st = 1 -> total st = 0);
  b_exact : total st = 0 -> freed st = 1 \/ exists t x, thr st !! t = Some x /\ dropping x = true }.

(** modifications that say "one reference" *)
Record invC (st : ast) : Prop := {
  c_one : forall h s c j mj i m m', hs st !! h = Some (s, c) -> counted (s, c) = true -> msgs st !! j = Some mj -> m_ev mj = c -> j <= i ->
    msgs st !! i = Some m -> m_val m = 1%N -> msgs st !! S i = Some m' -> exists ev, evs st !! m_ev m' = Some ev /\ e_h ev = h;
  c_oneP : forall t V old e j mj i m, thr st !! t = Some (TH V (Cloning old e)) -> msgs st !! j = Some mj -> m_ev mj = e -> j <= i ->
    msgs st !! i = Some m -> m_val m = 1%N -> S i = length (msgs st) }.

Lemma counted_live st h c : hs st !! h = Some (Live, c) -> 1 <= nL st.
Proof. intros H. exact (cnt_pos counted _ _ _ H eq_refl). Qed.
Lemma counted_two st h h' x y : hs st !! h = Some x -> hs st !! h' = Some y -> counted x = true -> counted y = true -> h <> h' -> 2 <= nL st.
Proof. intros Hh Hg Hx Hy Hn. exact (cnt_two counted _ _ _ _ _ Hh Hg Hx Hy Hn). Qed.
Lemma cloning_pos st t V old e : thr st !! t = Some (TH V (Cloning old e)) -> 1 <= nP st.
Proof. intros H. exact (cnt_pos cloning _ _ _ H eq_refl). Qed.

Lemma evs_snoc_ex (l : list event) e (k h : nat) :
  (exists ev, l !! k = Some ev /\ e_h ev = h) -> exists ev, (l ++ [e]) !! k = Some ev /\ e_h ev = h.
Proof. intros (ev&H&?). exists ev. split; [|done]. by apply lookup_app_l_Some. Qed.
Lemma last_lookup_eq {A} (l : list A) x i y : last l = Some x -> l !! i = Some y -> S i = length l -> x = y.
Proof. intros Hl Hi Hs. apply last_elem in Hl as (k&Hk&E). assert (i = k) as -> by lia. congruence. Qed.

Lemma invC_step T a st st' : invA st -> invB T st -> invC st -> astep a st = Some st' -> invC st'.
Proof.
  intros IA IB [C1 C2] H. apply astep_shape in H as [_ H].
  destruct H as [t1 t2 x [Vy py] H1 H2 ->|t h V m H1 H2 H3 ->|t V old e H1 H2 ->|t V old e H1 H2 ->|t h V H1 H2 ->
    |t h i V m H1 H2 H3 H4 H5 ->|t h i V m c H1 H2 H3 H4 H5 H6 ->|t h V H1 ->|t h V c s H1 H2 ->|t h V H1 H2 ->
    |t h V m c H1 H2 H3 H4 ->|t h i V m H1 H2 H3 ->|t V H1 ->|t h V c H1 H2 H3 ->]; cbn [t_view t_pend]; split; fields.
  all: try (exact C1).
  all: try (intros t' V' old' e' j mj i' m' Ht' Hj Hmj Hle Hi Hone; apply list_lookup_insert_Some in Ht' as [(?&[= ]&?)|[? Ht']]; exact (C2 _ _ _ _ _ _ _ _ Ht' Hj Hmj Hle Hi Hone)).
  all: try (intros h' s' c' j mj i' m1 m2 Hh' Hcnt Hj Hmj Hle Hi Hone Hsi; apply evs_snoc_ex; exact (C1 _ _ _ _ _ _ _ _ Hh' Hcnt Hj Hmj Hle Hi Hone Hsi)).
  - (* sync *) intros t V old e j mj i m Ht' Hj Hmj Hle Hi Hone. apply list_lookup_insert_Some in Ht' as [(->&[= <- ->]&?)|[? Ht']]; [|exact (C2 _ _ _ _ _ _ _ _ Ht' Hj Hmj Hle Hi Hone)]. exact (C2 _ _ _ _ _ _ _ _ H2 Hj Hmj Hle Hi Hone).
  - (* clone_add *) apply shared_ok_spec in H2 as (c&Hc&_). pose proof (counted_live _ _ _ Hc) as Hn.
    intros h' s' c' j mj i m1 m2 Hh' Hcnt Hj Hmj Hle Hi Hone Hsi. apply lookup_snoc_some in Hsi as [[Hlt Hsi]|[Hsi <-]].
    + apply lookup_snoc_some in Hi as [[Hlt' Hi]|[-> _]]; [|lia]. apply lookup_snoc_some in Hj as [[_ Hj]|[-> _]]; [|lia]. apply evs_snoc_ex. (exact (C1 _ _ _ _ _ _ _ _ Hh' Hcnt Hj Hmj Hle Hi Hone Hsi)).
    + apply lookup_snoc_some in Hi as [[Hlt' Hi]|[-> _]]; [|lia]. pose proof (last_lookup_eq _ _ _ _ H3 Hi Hsi) as <-.
      simpl. rewrite lookup_app_r, Nat.sub_diag by lia. eexists. split; [done|]. simpl.
      destruct (decide (h = h')) as [|Hne]; [done|]. pose proof (counted_two _ _ _ _ _ Hc Hh' eq_refl Hcnt Hne).
      pose proof (b_count _ _ IB _ H3). unfold total in *. lia.
  - apply shared_ok_spec in H2 as (c&Hc&_). pose proof (counted_live _ _ _ Hc) as Hn.
    intros t' V' old' e' j mj i m1 Ht' Hj Hmj Hle Hi Hone. rewrite app_length. simpl.
    apply lookup_snoc_some in Hi as [[Hlt' Hi]|[-> _]]; [|lia]. exfalso.
    apply lookup_snoc_some in Hj as [[Hltj Hj]|[-> _]]; [|lia]. lk.
    + pose proof (a_msgev _ IA _ _ Hj). lia.
    + pose proof (C2 _ _ _ _ _ _ _ _ Ht' Hj eq_refl Hle Hi Hone) as Hs.
      pose proof (last_lookup_eq _ _ _ _ H3 Hi Hs) as <-. pose proof (b_count _ _ IB _ H3).
      pose proof (cloning_pos _ _ _ _ _ Ht'). unfold total in *. lia.
  - exact C2.
  - (* clone_check *) intros h' s' c' j mj i m1 m2 Hh' Hcnt Hj Hmj Hle Hi Hone Hsi. apply lookup_snoc_some in Hh' as [[? Hh']|[-> [= <- <-]]]; [exact (C1 _ _ _ _ _ _ _ _ Hh' Hcnt Hj Hmj Hle Hi Hone Hsi)|].
    pose proof (C2 _ _ _ _ _ _ _ _ H1 Hj Hmj Hle Hi Hone) as Hs. apply lookup_lt_Some in Hsi. lia.
  - (* get_mut *) intros h' s' c' j mj i' m1 m2 Hh' Hcnt Hj Hmj Hle Hi Hone Hsi. apply evs_snoc_ex. apply list_lookup_insert_Some in Hh' as [(<-&[= <- <-]&?)|[? Hh']]; [|(exact (C1 _ _ _ _ _ _ _ _ Hh' Hcnt Hj Hmj Hle Hi Hone Hsi))]. (exact (C1 _ _ _ _ _ _ _ _ H6 eq_refl Hj Hmj Hle Hi Hone Hsi)).
  - (* end_mut *) intros h' s' c' j mj i' m1 m2 Hh' Hcnt Hj Hmj Hle Hi Hone Hsi. apply list_lookup_insert_Some in Hh' as [(<-&[= <- <-]&?)|[? Hh']]; [|(exact (C1 _ _ _ _ _ _ _ _ Hh' Hcnt Hj Hmj Hle Hi Hone Hsi))].
    destruct (b_uniq _ _ IB _ _ _ H1) as ((c1&Hc)&_). pose proof (eq_trans (eq_sym H2) Hc) as [= -> <-]. (exact (C1 _ _ _ _ _ _ _ _ Hc eq_refl Hj Hmj Hle Hi Hone Hsi)).
  - (* drop_sub *) pose proof (counted_live _ _ _ H4) as Hn.
    intros h' s' c' j mj i m1 m2 Hh' Hcnt Hj Hmj Hle Hi Hone Hsi. apply list_lookup_insert_Some in Hh' as [(?&[= <- <-]&?)|[Hne Hh']]; [done|].
    apply lookup_snoc_some in Hi as [[Hlt' Hi]|[-> _]]; [|apply lookup_lt_Some in Hsi; rewrite app_length in Hsi; simpl in Hsi; lia].
    apply lookup_snoc_some in Hj as [[_ Hj]|[-> _]]; [|lia].
    apply lookup_snoc_some in Hsi as [[Hlt Hsi]|[Hsi <-]]; [apply evs_snoc_ex; (exact (C1 _ _ _ _ _ _ _ _ Hh' Hcnt Hj Hmj Hle Hi Hone Hsi))|].
    pose proof (last_lookup_eq _ _ _ _ H3 Hi Hsi) as <-. pose proof (counted_two _ _ _ _ _ H4 Hh' eq_refl Hcnt Hne).
    pose proof (b_count _ _ IB _ H3). unfold total in *. lia.
  - pose proof (counted_live _ _ _ H4) as Hn.
    intros t' V' old' e' j mj i m1 Ht' Hj Hmj Hle Hi Hone. rewrite app_length. simpl.
    apply lookup_snoc_some in Hi as [[Hlt' Hi]|[-> _]]; [|lia]. exfalso.
    apply lookup_snoc_some in Hj as [[Hltj Hj]|[-> _]]; [|lia]. apply list_lookup_insert_Some in Ht' as [(?&Hx&?)|[? Ht']].
    + destruct (m_val m =? 1)%N; simplify_eq.
    + pose proof (C2 _ _ _ _ _ _ _ _ Ht' Hj Hmj Hle Hi Hone) as Hs.
      pose proof (last_lookup_eq _ _ _ _ H3 Hi Hs) as <-. pose proof (b_count _ _ IB _ H3).
      pose proof (cloning_pos _ _ _ _ _ Ht'). unfold total in *. lia.
  - (* forget *) intros h' s' c' j mj i m1 m2 Hh' Hcnt Hj Hmj Hle Hi Hone Hsi. apply list_lookup_insert_Some in Hh' as [(<-&[= <- <-]&?)|[? Hh']]; [done|exact (C1 _ _ _ _ _ _ _ _ Hh' Hcnt Hj Hmj Hle Hi Hone Hsi)].
  - exact C2.
Qed.

(** a load that says "one reference" is not stale *)
Lemma one_is_last T st V h i m :
  invA st -> invB T st -> invC st -> excl_ok st V h = true -> readable st V i = true -> msgs st !! i = Some m -> m_val m = 1%N ->
  S i = length (msgs st) /\ last (msgs st) = Some m /\ nL st = 1 /\ nP st = 0 /\ nF st = 0.
Proof.
  intros IA IB IC He Hr Hi Hone. apply excl_ok_spec in He as (c&Hc&HcV&Hev). rewrite readable_spec in Hr.
  assert (S i = length (msgs st)) as Hs.
  { destruct (msgs st !! S i) as [m'|] eqn:Hsi; [|apply lookup_ge_None in Hsi; apply lookup_lt_Some in Hi; lia].
    exfalso. destruct (a_cr _ IA _ _ _ Hc) as (j&mj&Hj&Hmj). assert (j <= i) as Hle.
    { destruct (decide (j <= i)); [done|]. exfalso. apply (Hr j mj Hj); [lia|]. by rewrite Hmj. }
    destruct (c_one _ IC _ _ _ _ _ _ _ _ Hc eq_refl Hj Hmj Hle Hi Hone Hsi) as (ev&Hm&Hh).
    apply (Hr _ _ Hsi); [lia|]. by eapply Hev. }
  assert (last (msgs st) = Some m) as Hl.
  { rewrite last_lookup, <- Hs. by simpl. }
  split_and!; try done; pose proof (b_count _ _ IB _ Hl); pose proof (counted_live _ _ _ Hc); unfold total in *; lia.
Qed.

Lemma invB_view T st st' t V V' p :
  invB T st -> thr st !! t = Some (TH V p) ->
  msgs st' = msgs st -> hs st' = hs st -> freed st' = freed st -> thr st' = <[t:=TH V' p]> (thr st) -> invB T st'.
Proof.
  intros [B1 B2 B3 B4 B5 B6 B7 B8 B9] Ht Em Eh Ef Et.
  assert (Hf : forall P : thread -> bool, P (TH V p) = P (TH V' p) -> cnt P (thr st') = cnt P (thr st)).
  { intros P HP. rewrite Et. pose proof (cnt_insert P _ _ _ (TH V' p) Ht). rewrite HP in *. lia. }
  assert (nL st' = nL st) as EL by (unfold nL; by rewrite Eh). assert (nF st' = nF st) as EF by (unfold nF; by rewrite Eh).
  assert (nP st' = nP st) as EP by (by apply Hf). assert (nO st' = nO st) as EO by (by apply Hf).
  assert (total st' = total st) as ET by (unfold total; lia).
  assert (Hth : forall t0 x, thr st' !! t0 = Some x -> exists W, thr st !! t0 = Some (TH W (t_pend x))).
  { intros t0 x H. rewrite Et in H. apply list_lookup_insert_Some in H as [(<-&<-&_)|[_ H]]; [eauto|]. destruct x. eauto. }
  assert (Hth' : forall t0 x, thr st !! t0 = Some x -> exists W, thr st' !! t0 = Some (TH W (t_pend x))).
  { intros t0 x H. rewrite Et. destruct (decide (t = t0)) as [->|Hne].
    - exists V'. rewrite list_lookup_insert by (by eapply lookup_lt_Some). simplify_eq. done.
    - rewrite list_lookup_insert_ne by done. destruct x. eauto. }
  constructor; rewrite ?ET, ?EO, ?EL, ?EP, ?EF, ?Ef, ?Em, ?Eh; try done.
  - by rewrite Et, insert_length.
  - intros t0 W h H. destruct (Hth _ _ H) as (W'&H'). by eapply B4.
  - intros t0 t0' W W' h h' H H'. destruct (Hth _ _ H) as (?&?), (Hth _ _ H') as (?&?). by eapply B5.
  - intros t0 x H Hd. destruct (Hth _ _ H) as (W&H'). by eapply (B6 t0 (TH W (t_pend x))).
  - intros t0 t0' x x' H H' Hd Hd'. destruct (Hth _ _ H) as (W&HW), (Hth _ _ H') as (W'&HW'). by eapply (B7 t0 t0' (TH W _) (TH W' _)).
  - intros HT. destruct (B9 HT) as [?|(t0&x&H&Hd)]; [by left|right]. destruct (Hth' _ _ H) as (W&HW). by exists t0, (TH W (t_pend x)).
Qed.

Lemma cnt_lt {A} (P : A -> bool) l i x : l !! i = Some x -> P x = false -> cnt P l < length l.
Proof.
  revert i. induction l as [|z l IH]; intros [|i] H HP; try done; simpl in *.
  - injection H as ->. rewrite HP. pose proof (cnt_le P l). lia.
  - specialize (IH i H HP). destruct (P z); lia.
Qed.

Lemma invB_step T a st st' : (N.of_nat T < 2 ^ 63)%N -> invA st -> invB T st -> invC st -> astep a st = Some st' -> invB T st'.
Proof.
  intros HT IA IB IC H. pose proof IB as [B1 B2 B3 B4 B5 B6 B7 B8 B9]. apply astep_shape in H as [_ H].
  destruct H as [t1 t2 x [Vy py] H1 H2 ->|t h V m H1 H2 H3 ->|t V old e H1 H2 ->|t V old e H1 H2 ->|t h V H1 H2 ->
    |t h i V m H1 H2 H3 H4 H5 ->|t h i V m c H1 H2 H3 H4 H5 H6 ->|t h V H1 ->|t h V c s H1 H2 ->|t h V H1 H2 ->
    |t h V m c H1 H2 H3 H4 ->|t h i V m H1 H2 H3 ->|t V H1 ->|t h V c H1 H2 H3 ->]; cbn [t_view t_pend].
  - by eapply invB_view.
  - (* clone_add *) apply shared_ok_spec in H2 as (c&Hc&_). pose proof (counted_live _ _ _ Hc) as Hn. specialize (B2 _ H3).
    pose proof (cnt_lt overflowing _ _ _ H1 eq_refl) as HO. rewrite B1 in HO. fold (nO st) in HO.
    set (st' := set_thr _ _ _).
    pose proof (cnt_insert cloning _ _ _ (TH (V ∪ {[length (evs st)]}) (Cloning (m_val m) (length (evs st)))) H1) as EP. cbn [cloning t_pend] in EP.
    pose proof (cnt_insert overflowing _ _ _ (TH (V ∪ {[length (evs st)]}) (Cloning (m_val m) (length (evs st)))) H1) as EO. cbn [overflowing t_pend] in EO.
    change (cnt cloning (<[t:=_]> (thr st))) with (nP st') in EP. change (cnt overflowing (<[t:=_]> (thr st))) with (nO st') in EO.
    fold (nP st) in EP. fold (nO st) in EO. rewrite B2 in EO.
    assert (nL st' = nL st) as EL by done. assert (nF st' = nF st) as EF by done.
    assert (total st' = S (total st)) as ET by (unfold total in *; lia).
    assert (Hth : forall t0 x, thr st' !! t0 = Some x -> x = TH (V ∪ {[length (evs st)]}) (Cloning (m_val m) (length (evs st))) \/ thr st !! t0 = Some x).
    { intros t0 x Hx. apply list_lookup_insert_Some in Hx as [(_&<-&_)|[_ Hx]]; auto. }
    constructor; rewrite ?ET; try (intros; lia).
    + unfold st'. fields. by rewrite insert_length.
    + unfold st'. fields. intros m0. rewrite last_snoc. intros [= <-]. simpl. rewrite B2.
      rewrite N.mod_small; unfold usize_wrap; [lia|]. change (2 ^ 64)%N with (2 ^ 63 + 2 ^ 63)%N. lia.
    + unfold max_refcount in EO. destruct (2 ^ 63 - 1 <? N.of_nat (total st))%N eqn:E; lia.
    + intros t0 V0 h0 Hx. destruct (Hth _ _ Hx) as [[=]|Hx']. destruct (B4 _ _ _ Hx') as ((c0&Hc0)&?&?).
      destruct (decide (h = h0)) as [->|Hne]; [congruence|]. pose proof (counted_two _ _ _ _ _ Hc Hc0 eq_refl eq_refl Hne). lia.
    + intros t0 t0' V0 V0' h0 h0' Hx Hx'. destruct (Hth _ _ Hx) as [[=]|?], (Hth _ _ Hx') as [[=]|?]. by eapply B5.
    + intros t0 x Hx Hd. destruct (Hth _ _ Hx) as [->|Hx']; [done|]. destruct (B6 _ _ Hx' Hd). unfold total in *. lia.
    + intros t0 t0' x x' Hx Hx' Hd Hd'. destruct (Hth _ _ Hx) as [->|?], (Hth _ _ Hx') as [->|?]; try done. by eapply (B7 t0 t0' x x').
    + change (freed st') with (freed st). destruct B8 as [? Hf]. split; [done|]. intros E. specialize (Hf E). unfold total in *. lia.
  - by constructor.
  - (* clone_check *) set (st' := set_thr _ _ _).
    pose proof (cnt_insert cloning _ _ _ (TH V Idle) H1) as EP. cbn [cloning t_pend] in EP.
    pose proof (cnt_insert overflowing _ _ _ (TH V Idle) H1) as EO. cbn [overflowing t_pend] in EO.
    change (cnt cloning (<[t:=_]> (thr st))) with (nP st') in EP. change (cnt overflowing (<[t:=_]> (thr st))) with (nO st') in EO.
    fold (nP st) in EP. fold (nO st) in EO. replace (max_refcount <? old)%N with false in EO by lia.
    assert (nL st' = S (nL st)) as EL by (unfold nL, st'; fields; rewrite cnt_app; simpl; lia).
    assert (nF st' = nF st) as EF by (unfold nF, st'; fields; rewrite cnt_app; simpl; lia).
    assert (total st' = total st) as ET by (unfold total in *; lia).
    assert (Hth : forall t0 x, thr st' !! t0 = Some x -> x = TH V Idle \/ thr st !! t0 = Some x).
    { intros t0 x Hx. apply list_lookup_insert_Some in Hx as [(_&<-&_)|[_ Hx]]; auto. }
    constructor; rewrite ?ET; try (intros; lia).
    + unfold st'. fields. by rewrite insert_length.
    + exact B2.
    + intros t0 V0 h0 Hx. destruct (Hth _ _ Hx) as [[=]|Hx']. destruct (B4 _ _ _ Hx') as ((c0&Hc0)&?&?). lia.
    + intros t0 t0' V0 V0' h0 h0' Hx Hx'. destruct (Hth _ _ Hx) as [[=]|?], (Hth _ _ Hx') as [[=]|?]. by eapply B5.
    + intros t0 x Hx Hd. destruct (Hth _ _ Hx) as [->|Hx']; [done|]. exact (B6 _ _ Hx' Hd).
    + intros t0 t0' x x' Hx Hx' Hd Hd'. destruct (Hth _ _ Hx) as [->|?], (Hth _ _ Hx') as [->|?]; try done. by eapply (B7 t0 t0' x x').
    + exact B8.
    + intros E. unfold total in *. lia.
  - by eapply invB_view.
  - by eapply invB_view.
  - (* get_mut *) destruct (one_is_last _ _ _ _ _ _ IA IB IC H2 H3 H4 H5) as (Hs&Hl&NL&NP&NF).
    set (st' := set_thr _ _ _). set (V' := V ∪ _ ∪ _) in *.
    pose proof (cnt_insert cloning _ _ _ (TH V' (Unique h)) H1) as EP. cbn [cloning t_pend] in EP.
    pose proof (cnt_insert overflowing _ _ _ (TH V' (Unique h)) H1) as EO. cbn [overflowing t_pend] in EO.
    change (cnt cloning (<[t:=_]> (thr st))) with (nP st') in EP. change (cnt overflowing (<[t:=_]> (thr st))) with (nO st') in EO.
    fold (nP st) in EP. fold (nO st) in EO.
    pose proof (cnt_insert counted _ _ _ (Borrowed, c) H6) as EL. pose proof (cnt_insert forgotten _ _ _ (Borrowed, c) H6) as EF.
    cbn [counted forgotten fst] in EL, EF. change (cnt counted (<[h:=_]> (hs st))) with (nL st') in EL. change (cnt forgotten (<[h:=_]> (hs st))) with (nF st') in EF.
    fold (nL st) in EL. fold (nF st) in EF.
    assert (total st' = total st) as ET by (unfold total in *; lia).
    assert (Hno : forall t0 V0 h0, thr st !! t0 <> Some (TH V0 (Unique h0))).
    { intros t0 V0 h0 Hx. destruct (B4 _ _ _ Hx) as ((c0&Hc0)&_).
      destruct (decide (h = h0)) as [->|Hne]; [congruence|]. pose proof (counted_two _ _ _ _ _ H6 Hc0 eq_refl eq_refl Hne). lia. }
    assert (Hth : forall t0 x, thr st' !! t0 = Some x -> (t0 = t /\ x = TH V' (Unique h)) \/ thr st !! t0 = Some x).
    { intros t0 x Hx. apply list_lookup_insert_Some in Hx as [(->&<-&_)|[_ Hx]]; auto. }
    constructor; rewrite ?ET; try (intros; lia).
    + unfold st'. fields. by rewrite insert_length.
    + exact B2.
    + intros t0 V0 h0 Hx. destruct (Hth _ _ Hx) as [[-> [= -> ->]]|Hx']; [|by destruct (Hno _ _ _ Hx')].
      split; [|lia]. exists c. unfold st'. fields. apply list_lookup_insert. by eapply lookup_lt_Some.
    + intros t0 t0' V0 V0' h0 h0' Hx Hx'. destruct (Hth _ _ Hx) as [[-> _]|Hy]; [|by destruct (Hno _ _ _ Hy)].
      destruct (Hth _ _ Hx') as [[-> _]|Hy]; [done|by destruct (Hno _ _ _ Hy)].
    + intros t0 x Hx Hd. destruct (Hth _ _ Hx) as [[-> ->]|Hx']; [done|]. destruct (B6 _ _ Hx' Hd). unfold total in *. lia.
    + intros t0 t0' x x' Hx Hx' Hd Hd'. destruct (Hth _ _ Hx) as [[-> ->]|?], (Hth _ _ Hx') as [[-> ->]|?]; try done. by eapply (B7 t0 t0' x x').
    + exact B8.
    + unfold total in *. lia.
  - by eapply invB_view.
  - (* end_mut *) destruct (B4 _ _ _ H1) as ((c0&Hc0)&NL&NP&NF). pose proof (eq_trans (eq_sym H2) Hc0) as [= -> <-].
    set (st' := set_thr _ _ _).
    pose proof (cnt_insert cloning _ _ _ (TH V Idle) H1) as EP. cbn [cloning t_pend] in EP.
    pose proof (cnt_insert overflowing _ _ _ (TH V Idle) H1) as EO. cbn [overflowing t_pend] in EO.
    change (cnt cloning (<[t:=_]> (thr st))) with (nP st') in EP. change (cnt overflowing (<[t:=_]> (thr st))) with (nO st') in EO.
    fold (nP st) in EP. fold (nO st) in EO.
    pose proof (cnt_insert counted _ _ _ (Live, c) H2) as EL. pose proof (cnt_insert forgotten _ _ _ (Live, c) H2) as EF.
    cbn [counted forgotten fst] in EL, EF. change (cnt counted (<[h:=_]> (hs st))) with (nL st') in EL. change (cnt forgotten (<[h:=_]> (hs st))) with (nF st') in EF.
    fold (nL st) in EL. fold (nF st) in EF.
    assert (total st' = total st) as ET by (unfold total in *; lia).
    assert (Hth : forall t0 x, thr st' !! t0 = Some x -> x = TH V Idle \/ t0 <> t /\ thr st !! t0 = Some x).
    { intros t0 x Hx. apply list_lookup_insert_Some in Hx as [(_&<-&_)|[? Hx]]; auto. }
    constructor; rewrite ?ET; try (intros; lia).
    + unfold st'. fields. by rewrite insert_length.
    + exact B2.
    + intros t0 V0 h0 Hx. destruct (Hth _ _ Hx) as [[=]|[Hne Hx']]. destruct Hne. by eapply B5.
    + intros t0 t0' V0 V0' h0 h0' Hx Hx'. destruct (Hth _ _ Hx) as [[=]|[Hne Hy]]. destruct Hne. by eapply B5.
    + intros t0 x Hx Hd. destruct (Hth _ _ Hx) as [->|[_ Hx']]; [done|]. exact (B6 _ _ Hx' Hd).
    + intros t0 t0' x x' Hx Hx' Hd Hd'. destruct (Hth _ _ Hx) as [->|[_ ?]], (Hth _ _ Hx') as [->|[_ ?]]; try done. by eapply (B7 t0 t0' x x').
    + exact B8.
    + unfold total in *. lia.
  - destruct (B4 _ _ _ H1) as ((c0&Hc0)&_). congruence.
  - (* drop_sub *) pose proof (counted_live _ _ _ H4) as Hn. specialize (B2 _ H3). set (V' := V ∪ _) in *.
    set (p' := if (m_val m =? 1)%N then Dropping h else Idle).
    set (st' := set_thr _ _ _).
    pose proof (cnt_insert cloning _ _ _ (TH V' p') H1) as EP. pose proof (cnt_insert overflowing _ _ _ (TH V' p') H1) as EO.
    assert (cloning (TH V' p') = false) as E1 by (unfold p'; by destruct (m_val m =? 1)%N). assert (overflowing (TH V' p') = false) as E2 by (unfold p'; by destruct (m_val m =? 1)%N).
    rewrite E1 in EP. rewrite E2 in EO. cbn [cloning t_pend] in EP. cbn [overflowing t_pend] in EO.
    change (cnt cloning (<[t:=_]> (thr st))) with (nP st') in EP. change (cnt overflowing (<[t:=_]> (thr st))) with (nO st') in EO.
    fold (nP st) in EP. fold (nO st) in EO.
    pose proof (cnt_insert counted _ _ _ (Dropped, c) H4) as EL. pose proof (cnt_insert forgotten _ _ _ (Dropped, c) H4) as EF.
    cbn [counted forgotten fst] in EL, EF. change (cnt counted (<[h:=_]> (hs st))) with (nL st') in EL. change (cnt forgotten (<[h:=_]> (hs st))) with (nF st') in EF.
    fold (nL st) in EL. fold (nF st) in EF.
    assert (S (total st') = total st) as ET by (unfold total in *; lia).
    assert (Hno : forall t0 V0 h0, thr st !! t0 <> Some (TH V0 (Unique h0))).
    { intros t0 V0 h0 Hx. destruct (B4 _ _ _ Hx) as ((c0&Hc0)&?&_).
      destruct (decide (h = h0)) as [->|Hne]; [congruence|]. pose proof (counted_two _ _ _ _ _ H4 Hc0 eq_refl eq_refl Hne). lia. }
    assert (Hnd : forall t0 x, thr st !! t0 = Some x -> dropping x = false).
    { intros t0 x Hx. destruct (dropping x) eqn:Ed; [|done]. destruct (B6 _ _ Hx Ed). unfold total in *. lia. }
    assert (Hth : forall t0 x, thr st' !! t0 = Some x -> (t0 = t /\ x = TH V' p') \/ thr st !! t0 = Some x).
    { intros t0 x Hx. apply list_lookup_insert_Some in Hx as [(->&<-&_)|[_ Hx]]; auto. }
    assert (Hf0 : freed st = 0). { destruct B8 as [B8 B8']. destruct (freed st) as [|[|n]]; [done|specialize (B8' eq_refl); unfold total in *; lia|lia]. }
    constructor; try (intros; lia).
    + unfold st'. fields. by rewrite insert_length.
    + assert (forall m0, last (msgs st') = Some m0 -> m_val m0 = ((m_val m + (usize_wrap - 1)) mod usize_wrap)%N) as Hv.
      { unfold st'. fields. intros m0. rewrite last_snoc. by intros [= <-]. }
      intros m0 Hm0. rewrite (Hv _ Hm0), B2. clear Hv Hm0. clearbody st'.
      pose proof (cnt_lt overflowing _ _ _ H1 eq_refl) as HO. rewrite B1 in HO. fold (nO st) in HO.
      replace (N.of_nat (total st) + (usize_wrap - 1))%N with (N.of_nat (total st') + 1 * usize_wrap)%N by (unfold usize_wrap; lia).
      rewrite N.mod_add by done. apply N.mod_small. unfold usize_wrap. change (2 ^ 64)%N with (2 ^ 63 + 2 ^ 63)%N. lia.
    + intros t0 V0 h0 Hx. destruct (Hth _ _ Hx) as [[_ Hx']|Hx']; [unfold p' in Hx'; by destruct (m_val m =? 1)%N|by destruct (Hno _ _ _ Hx')].
    + intros t0 t0' V0 V0' h0 h0' Hx Hx'. destruct (Hth _ _ Hx) as [[_ Hy]|Hy]; [unfold p' in Hy; by destruct (m_val m =? 1)%N|by destruct (Hno _ _ _ Hy)].
    + intros t0 x Hx Hd. destruct (Hth _ _ Hx) as [[-> ->]|Hx']; [|by rewrite (Hnd _ _ Hx') in Hd].
      unfold p', dropping in Hd. destruct (N.eqb_spec (m_val m) 1); [|done]. split; [lia|done].
    + intros t0 t0' x x' Hx Hx' Hd Hd'. destruct (Hth _ _ Hx) as [[-> ->]|Hy]; [|by rewrite (Hnd _ _ Hy) in Hd].
      destruct (Hth _ _ Hx') as [[-> ->]|Hy]; [done|by rewrite (Hnd _ _ Hy) in Hd'].
    + change (freed st') with (freed st). split; lia.
    + intros E. right. exists t, (TH V' p'). split; [unfold st'; fields; apply list_lookup_insert; by eapply lookup_lt_Some|].
      unfold p', dropping. assert (m_val m = 1%N) as -> by lia. done.
  - (* drop_load *) set (st' := set_thr _ _ _). set (V' := V ∪ _ ∪ _) in *.
    pose proof (cnt_insert cloning _ _ _ (TH V' Freeing) H1) as EP. cbn [cloning t_pend] in EP.
    pose proof (cnt_insert overflowing _ _ _ (TH V' Freeing) H1) as EO. cbn [overflowing t_pend] in EO.
    change (cnt cloning (<[t:=_]> (thr st))) with (nP st') in EP. change (cnt overflowing (<[t:=_]> (thr st))) with (nO st') in EO.
    fold (nP st) in EP. fold (nO st) in EO. assert (nL st' = nL st) as EL by done. assert (nF st' = nF st) as EF by done.
    assert (total st' = total st) as ET by (unfold total in *; lia). destruct (B6 _ _ H1 eq_refl) as [Z0 F0].
    assert (Hth : forall t0 x, thr st' !! t0 = Some x -> (t0 = t /\ x = TH V' Freeing) \/ t0 <> t /\ thr st !! t0 = Some x).
    { intros t0 x Hx. apply list_lookup_insert_Some in Hx as [(->&<-&_)|[? Hx]]; auto. }
    constructor; rewrite ?ET; try (intros; lia).
    + unfold st'. fields. by rewrite insert_length.
    + exact B2.
    + intros t0 V0 h0 Hx. destruct (Hth _ _ Hx) as [[_ [=]]|[_ Hx']]. destruct (B4 _ _ _ Hx') as (_&?&_). unfold total in *. lia.
    + intros t0 t0' V0 V0' h0 h0' Hx Hx'. destruct (Hth _ _ Hx) as [[_ [=]]|[_ Hy]]. destruct (B4 _ _ _ Hy) as (_&?&_). unfold total in *. lia.
    + intros t0 x Hx Hd. done.
    + intros t0 t0' x x' Hx Hx' Hd Hd'. destruct (Hth _ _ Hx) as [[-> ->]|[Hn Hy]]; [|destruct Hn; by eapply (B7 t0 t x)].
      destruct (Hth _ _ Hx') as [[-> ->]|[Hn Hy]]; [done|destruct Hn; by eapply (B7 t0' t x')].
    + exact B8.
    + intros _. right. exists t, (TH V' Freeing). split; [|done]. unfold st'. fields. apply list_lookup_insert. by eapply lookup_lt_Some.
  - (* free *) set (st' := AS _ _ _ _ _ _ _).
    pose proof (cnt_insert cloning _ _ _ (TH V Idle) H1) as EP. cbn [cloning t_pend] in EP.
    pose proof (cnt_insert overflowing _ _ _ (TH V Idle) H1) as EO. cbn [overflowing t_pend] in EO.
    change (cnt cloning (<[t:=_]> (thr st))) with (nP st') in EP. change (cnt overflowing (<[t:=_]> (thr st))) with (nO st') in EO.
    fold (nP st) in EP. fold (nO st) in EO. assert (nL st' = nL st) as EL by done. assert (nF st' = nF st) as EF by done.
    assert (total st' = total st) as ET by (unfold total in *; lia). destruct (B6 _ _ H1 eq_refl) as [Z0 F0].
    assert (Hth : forall t0 x, thr st' !! t0 = Some x -> x = TH V Idle \/ t0 <> t /\ thr st !! t0 = Some x).
    { intros t0 x Hx. apply list_lookup_insert_Some in Hx as [(_&<-&_)|[? Hx]]; auto. }
    assert (Hnd : forall t0 x, thr st' !! t0 = Some x -> dropping x = false).
    { intros t0 x Hx. destruct (dropping x) eqn:Ed; [|done]. destruct (Hth _ _ Hx) as [->|[Hn Hy]]; [done|]. destruct Hn. by eapply (B7 t0 t x). }
    assert (freed st' = 1) as F1 by (unfold st'; simpl; lia).
    constructor; rewrite ?ET; try (intros; lia).
    + unfold st'. fields. by rewrite insert_length.
    + exact B2.
    + intros t0 V0 h0 Hx. destruct (Hth _ _ Hx) as [[=]|[_ Hx']]. destruct (B4 _ _ _ Hx') as (_&?&_). unfold total in *. lia.
    + intros t0 t0' V0 V0' h0 h0' Hx Hx'. destruct (Hth _ _ Hx) as [[=]|[_ Hy]]. destruct (B4 _ _ _ Hy) as (_&?&_). unfold total in *. lia.
  - (* forget *) set (st' := set_hs _ _ _).
    pose proof (cnt_insert counted _ _ _ (Forgotten, c) H3) as EL. pose proof (cnt_insert forgotten _ _ _ (Forgotten, c) H3) as EF.
    cbn [counted forgotten fst] in EL, EF. change (cnt counted (<[h:=_]> (hs st))) with (nL st') in EL. change (cnt forgotten (<[h:=_]> (hs st))) with (nF st') in EF.
    fold (nL st) in EL. fold (nF st) in EF. assert (nP st' = nP st) as EP by done. assert (nO st' = nO st) as EO by done.
    assert (total st' = total st) as ET by (unfold total in *; lia).
    constructor; rewrite ?ET, ?EO; try done.
    intros t0 V0 h0 Hx. destruct (B4 _ _ _ Hx) as ((c0&Hc0)&?&_). pose proof (counted_live _ _ _ H3).
    destruct (decide (h = h0)) as [->|Hne]; [congruence|]. pose proof (counted_two _ _ _ _ _ H3 Hc0 eq_refl eq_refl Hne). lia.
Qed.

(** what each party has seen *)
Record invD (st : ast) : Prop := {
  d_bad : bad st = false;
  d_drop : freed st = 0 -> forall i ev c, evs st !! i = Some ev -> hs st !! e_h ev = Some (Dropped, c) ->
    (exists m, last (msgs st) = Some m /\ i ∈ m_rel m) \/ exists t V, thr st !! t = Some (TH V Freeing) /\ i ∈ V;
  d_W : forall w ev h s c, evs st !! w = Some ev -> e_kind ev = KWrite -> hs st !! h = Some (s, c) -> counted (s, c) = true ->
    e_h ev = h \/ exists cv, evs st !! c = Some cv /\ w ∈ e_view cv;
  d_WP : forall w ev t V old c, evs st !! w = Some ev -> e_kind ev = KWrite -> thr st !! t = Some (TH V (Cloning old c)) ->
    exists cv, evs st !! c = Some cv /\ w ∈ e_view cv;
  d_U : forall t V h i ev, thr st !! t = Some (TH V (Unique h)) -> evs st !! i = Some ev -> i ∈ V;
  d_D : forall t V h m, thr st !! t = Some (TH V (Dropping h)) -> last (msgs st) = Some m -> m_ev m ∈ V;
  d_Fr : forall t V i ev, thr st !! t = Some (TH V Freeing) -> evs st !! i = Some ev -> i ∈ V }.

Lemma counted_pos st h x : hs st !! h = Some x -> counted x = true -> 1 <= nL st.
Proof. intros H HP. exact (cnt_pos counted _ _ _ H HP). Qed.
Lemma live_not_freed T st : invB T st -> 1 <= nL st -> freed st = 0.
Proof. intros IB Hc. destruct (b_freed _ _ IB) as [? H]. destruct (freed st) as [|[|n]]; [done|specialize (H eq_refl); unfold total in *; lia|lia]. Qed.
Lemma live_no_dropping T st t x : invB T st -> 1 <= nL st -> thr st !! t = Some x -> dropping x = true -> False.
Proof. intros IB Hc Ht Hd. destruct (b_drop _ _ IB _ _ Ht Hd). unfold total in *. lia. Qed.
Lemma live_no_unique T st h c t V h' : invB T st -> hs st !! h = Some (Live, c) -> thr st !! t = Some (TH V (Unique h')) -> False.
Proof.
  intros IB Hc Ht. destruct (b_uniq _ _ IB _ _ _ Ht) as ((c'&Hc')&?&_).
  destruct (decide (h = h')) as [->|Hne]; [congruence|]. pose proof (counted_two _ _ _ _ _ Hc Hc' eq_refl eq_refl Hne). lia.
Qed.
Lemma dead_all_dropped st h : nL st = 0 -> nF st = 0 -> h < length (hs st) -> exists c, hs st !! h = Some (Dropped, c).
Proof.
  intros HL HF Hlt. apply lookup_lt_is_Some in Hlt as [[s c] Hc]. exists c. pose proof (proj1 (cnt_zero _ _) HL _ _ Hc). pose proof (proj1 (cnt_zero _ _) HF _ _ Hc). by destruct s.
Qed.
Lemma sole_others_dropped st h h' x : hs st !! h = Some x -> counted x = true -> nL st = 1 -> nF st = 0 -> h' < length (hs st) -> h' <> h ->
  exists c, hs st !! h' = Some (Dropped, c).
Proof.
  intros Hx Hc HL HF Hlt Hne. apply lookup_lt_is_Some in Hlt as [[s c] Hh']. exists c. pose proof (proj1 (cnt_zero _ _) HF _ _ Hh').
  destruct s; try done; by pose proof (counted_two _ _ _ _ _ Hx Hh' Hc eq_refl (not_eq_sym Hne)); lia.
Qed.
Lemma sees_writes st V h : invA st -> invD st ->
  (forall e ev, e ∈ V -> evs st !! e = Some ev -> e_view ev ⊆ V) -> shared_ok st V h = true ->
  forall w ev, evs st !! w = Some ev -> e_kind ev = KWrite -> w ∈ V.
Proof.
  intros IA ID HV Hs w ev Hw Hk. apply shared_ok_spec in Hs as (c&Hc&HcV&Hex).
  destruct (d_W _ ID _ _ _ _ _ Hw Hk Hc eq_refl) as [Hh|(cv&Hcv&Hin)].
  - apply (Hex _ _ Hw Hh). by rewrite Hk.
  - by apply (HV _ _ HcV Hcv).
Qed.
Lemma excl_shared st V h : excl_ok st V h = true -> shared_ok st V h = true.
Proof. rewrite excl_ok_spec, shared_ok_spec. intros (c&?&?&H). exists c. split_and!; try done. intros i e Hi He _. by eapply H. Qed.

(** a new event on a handle that is in use, by a thread that ends in a neutral state *)
Lemma ex_snoc (l : list event) e c (P : event -> Prop) : (exists cv, l !! c = Some cv /\ P cv) -> exists cv, (l ++ [e]) !! c = Some cv /\ P cv.
Proof. intros (cv&H&?). exists cv. split; [|done]. by apply lookup_app_l_Some. Qed.

(** proof device, no counterpart in the code *)
Definition neutral (p : pend) : Prop := match p with Idle => True | Cloning _ _ => True | _ => False end.

Lemma thr_set_neutral (l : list thread) t x V p t0 V0 p0 : l !! t = Some x -> <[t:=TH V p]> l !! t0 = Some (TH V0 p0) ->
  (t0 = t /\ V0 = V /\ p0 = p) \/ (t0 <> t /\ l !! t0 = Some (TH V0 p0)).
Proof. intros Ht H. apply list_lookup_insert_Some in H as [(->&[= -> ->]&?)|[? H]]; auto. Qed.

(** the view of a thread grows, and nothing else *)
Lemma invD_view st t V V' p : invD st -> thr st !! t = Some (TH V p) -> V ⊆ V' -> invD (set_thr t (TH V' p) st).
Proof.
  intros [D1 D2 D3 D4 D5 D6 D7] Ht Hsub. constructor; fields; try done.
  - intros F i ev c Hi Hc. destruct (D2 F _ _ _ Hi Hc) as [?|(t0&V0&H0&Hin)]; [by left|right].
    destruct (decide (t = t0)) as [<-|Hne].
    + rewrite Ht in H0. injection H0 as -> ->. exists t, V'. split; [|set_solver]. apply list_lookup_insert. by eapply lookup_lt_Some.
    + exists t0, V0. by rewrite list_lookup_insert_ne.
  - intros w ev t0 V0 old c Hw Hk H0. destruct (thr_set_neutral _ _ _ _ _ _ _ _ Ht H0) as [(->&->&<-)|[_ H]]; by eapply D4.
  - intros t0 V0 h0 i ev H0 Hi. destruct (thr_set_neutral _ _ _ _ _ _ _ _ Ht H0) as [(->&->&<-)|[_ H]]; [|by eapply D5]. apply Hsub. by eapply D5.
  - intros t0 V0 h0 m H0 Hi. destruct (thr_set_neutral _ _ _ _ _ _ _ _ Ht H0) as [(->&->&<-)|[_ H]]; [|by eapply D6]. apply Hsub. by eapply D6.
  - intros t0 V0 i ev H0 Hi. destruct (thr_set_neutral _ _ _ _ _ _ _ _ Ht H0) as [(->&->&<-)|[_ H]]; [|by eapply D7]. apply Hsub. by eapply D7.
Qed.

(** an event on a live handle that is not a write: the event, possibly a modification, and the
    thread in a neutral state *)
Lemma invD_use T st h c k V ok t x p :
  invA st -> invB T st -> invD st -> hs st !! h = Some (Live, c) -> k <> KWrite -> thr st !! t = Some x -> t_pend x = Idle -> ok = true ->
  (p = Idle \/ exists old, p = Cloning old (length (evs st)) /\ forall w ev, evs st !! w = Some ev -> e_kind ev = KWrite -> w ∈ V) ->
  forall ms, (exists m m', last (msgs st) = Some m /\ last ms = Some m' /\ m_rel m ⊆ m_rel m') ->
  invD (set_thr t (TH V p) (AS (evs st ++ [EV h k V]) ms (hs st) (thr st) (freed st) (bad st || negb ok || negb (freed st =? 0)) (aborted st))).
Proof.
  intros IA IB [D1 D2 D3 D4 D5 D6 D7] Hc Hk Ht Hx -> Hp ms (m&m'&Hm&Hm'&Hsub). pose proof (counted_live _ _ _ Hc) as HL.
  assert (Hcur : forall w ev, (evs st ++ [EV h k V]) !! w = Some ev -> e_kind ev = KWrite -> evs st !! w = Some ev).
  { intros w ev Hw Hkw. apply lookup_snoc_some in Hw as [[_ Hw]|[-> <-]]; [done|]. simpl in Hkw. by subst. }
  assert (Hnp : forall t0 V0 p0, <[t:=TH V p]> (thr st) !! t0 = Some (TH V0 p0) -> p0 <> p -> thr st !! t0 = Some (TH V0 p0)).
  { intros t0 V0 p0 H0 Hne. by destruct (thr_set_neutral _ _ _ _ _ _ _ _ Ht H0) as [(->&->&->)|[_ H]]. }
  constructor; fields.
  - rewrite D1, (live_not_freed _ _ IB HL). done.
  - intros F i ev c0 Hi Hc0. apply lookup_snoc_some in Hi as [[_ Hi]|[-> <-]]; [|simpl in Hc0; congruence].
    destruct (D2 F _ _ _ Hi Hc0) as [(m0&Hm0&Hin)|(t0&V0&H0&Hin)].
    + left. exists m'. split; [done|]. rewrite Hm in Hm0. injection Hm0 as <-. by apply Hsub.
    + destruct (live_no_dropping _ _ _ _ IB HL H0 eq_refl).
  - intros w ev h0 s0 c0 Hw Hkw Hh0 Hcnt. specialize (Hcur _ _ Hw Hkw). destruct (D3 _ _ _ _ _ Hcur Hkw Hh0 Hcnt) as [?|?]; [by left|right; by apply ex_snoc].
  - intros w ev t0 V0 old c0 Hw Hkw H0. specialize (Hcur _ _ Hw Hkw).
    destruct (thr_set_neutral _ _ _ _ _ _ _ _ Ht H0) as [(->&->&E)|[_ H]]; [|by eapply ex_snoc, D4].
    destruct Hp as [->|(old'&->&HV)]; [done|]. injection E as -> ->. eexists. split; [by rewrite lookup_app_r, Nat.sub_diag|]. simpl. by eapply HV.
  - intros t0 V0 h0 i ev H0 Hi. apply Hnp in H0; [|destruct Hp as [->|(?&->&_)]; done]. destruct (live_no_unique _ _ _ _ _ _ _ IB Hc H0).
  - intros t0 V0 h0 m0 H0 Hi. apply Hnp in H0; [|destruct Hp as [->|(?&->&_)]; done]. destruct (live_no_dropping _ _ _ _ IB HL H0 eq_refl).
  - intros t0 V0 i ev H0 Hi. apply Hnp in H0; [|destruct Hp as [->|(?&->&_)]; done]. destruct (live_no_dropping _ _ _ _ IB HL H0 eq_refl).
Qed.

Lemma invD_step T a st st' : (N.of_nat T < 2 ^ 63)%N -> invA st -> invB T st -> invC st -> invD st -> astep a st = Some st' -> invD st'.
Proof.
  intros HT IA IB IC ID H. apply astep_shape in H as [_ H].
  destruct H as [t1 t2 x [Vy py] H1 H2 ->|t h V m H1 H2 H3 ->|t V old e H1 H2 ->|t V old e H1 H2 ->|t h V H1 H2 ->
    |t h i V m H1 H2 H3 H4 H5 ->|t h i V m c H1 H2 H3 H4 H5 H6 ->|t h V H1 ->|t h V c s H1 H2 ->|t h V H1 H2 ->
    |t h V m c H1 H2 H3 H4 ->|t h i V m H1 H2 H3 ->|t V H1 ->|t h V c H1 H2 H3 ->]; cbn [t_view t_pend].
  - eapply invD_view; [done|done|set_solver].
  - (* clone_add *) pose proof H2 as (c&Hc&_)%shared_ok_spec. unfold push_msg, push_ev. cbn [evs msgs hs thr freed bad aborted].
    eapply (invD_use T); try done; [|by exists m; eexists; rewrite last_snoc; split_and!]. right. eexists. split; [done|].
    intros w ev Hw Hk. apply elem_of_union_l. eapply (sees_writes st V h); try done. intros e0 ev0 He0 Hev0. exact (a_closed _ IA _ _ _ _ H1 He0 Hev0).
  - destruct ID. by constructor.
  - (* clone_check *) pose proof (cloning_pos _ _ _ _ _ H1) as HP. destruct ID as [D1 D2 D3 D4 D5 D6 D7]. constructor; fields; try done.
    + intros F i ev c Hi Hc. apply lookup_snoc_some in Hc as [[_ Hc]|[_ [=]]]. destruct (D2 F _ _ _ Hi Hc) as [?|(t0&V0&H0&Hin)]; [by left|right].
      exists t0, V0. rewrite list_lookup_insert_ne; [done|]. intros ->. rewrite H1 in H0. done.
    + intros w ev h0 s0 c0 Hw Hk Hh0 Hcnt. apply lookup_snoc_some in Hh0 as [[_ Hh0]|[_ [= <- <-]]]; [by eapply D3|]. right. by eapply D4.
    + intros w ev t0 V0 old0 c0 Hw Hk H0. destruct (thr_set_neutral _ _ _ _ _ _ _ _ H1 H0) as [(_&_&[=])|[_ H]]. by eapply D4.
    + intros t0 V0 h0 i ev H0 Hi. destruct (thr_set_neutral _ _ _ _ _ _ _ _ H1 H0) as [(_&_&[=])|[_ H]]. by eapply D5.
    + intros t0 V0 h0 i H0 Hi. destruct (thr_set_neutral _ _ _ _ _ _ _ _ H1 H0) as [(_&_&[=])|[_ H]]. by eapply D6.
    + intros t0 V0 i ev H0 Hi. destruct (thr_set_neutral _ _ _ _ _ _ _ _ H1 H0) as [(_&_&[=])|[_ H]]. by eapply D7.
  - (* read *) pose proof H2 as (c&Hc&_)%shared_ok_spec. unfold push_ev. destruct (last (msgs st)) as [m|] eqn:Hl; [|apply last_None in Hl; by destruct (a_msgs _ IA)].
    eapply (invD_use T); try done; [|by left|by exists m, m].
    apply sees_spec. intros i ev Hi Hk. eapply (sees_writes st V h); try done; [|by destruct (e_kind ev)]. intros e0 ev0 He0 Hev0. exact (a_closed _ IA _ _ _ _ H1 He0 Hev0).
  - (* get_mut no *) pose proof H2 as (c&Hc&_)%excl_ok_spec. unfold push_ev. destruct (last (msgs st)) as [m0|] eqn:Hl; [|apply last_None in Hl; by destruct (a_msgs _ IA)].
    eapply (invD_use T); try done; [by left|by exists m0, m0].
  - (* get_mut *) destruct (one_is_last _ _ _ _ _ _ IA IB IC H2 H3 H4 H5) as (Hs&Hl&NL&NP&NF). pose proof (counted_live _ _ _ H6) as HL.
    apply excl_ok_spec in H2 as (c'&Hc'&_&Hev). rewrite H6 in Hc'. injection Hc' as <-.
    pose proof (live_not_freed _ _ IB HL) as F0. destruct ID as [D1 D2 D3 D4 D5 D6 D7]. constructor; fields.
    + by rewrite D1, F0.
    + intros _ j ev c0 Hj Hc0. apply list_lookup_insert_Some in Hc0 as [(_&[=]&_)|[Hne Hc0]].
      apply lookup_snoc_some in Hj as [[_ Hj]|[-> <-]]; [|by simpl in *]. destruct (D2 F0 _ _ _ Hj Hc0) as [?|(t0&V0&H0&Hin)]; [by left|].
      destruct (live_no_dropping _ _ _ _ IB HL H0 eq_refl).
    + intros w ev h0 s0 c0 Hw Hk Hh0 Hcnt. apply lookup_snoc_some in Hw as [[_ Hw]|[-> <-]]; [|done].
      apply list_lookup_insert_Some in Hh0 as [(->&[= <- <-]&_)|[Hne Hh0]].
      * destruct (D3 _ _ _ _ _ Hw Hk H6 eq_refl) as [?|?]; [by left|right; by apply ex_snoc].
      * destruct (D3 _ _ _ _ _ Hw Hk Hh0 Hcnt) as [?|?]; [by left|right; by apply ex_snoc].
    + intros w ev t0 V0 old0 c0 Hw Hk H0. apply lookup_snoc_some in Hw as [[_ Hw]|[-> <-]]; [|done].
      destruct (thr_set_neutral _ _ _ _ _ _ _ _ H1 H0) as [(_&_&[=])|[_ H]]. by eapply ex_snoc, D4.
    + intros t0 V0 h0 j ev H0 Hj. destruct (thr_set_neutral _ _ _ _ _ _ _ _ H1 H0) as [(->&->&[= ->])|[_ H]]; [|destruct (live_no_unique _ _ _ _ _ _ _ IB H6 H)].
      apply lookup_snoc_some in Hj as [[_ Hj]|[-> <-]]; [|set_solver].
      destruct (decide (e_h ev = h)) as [E|Hne]; [pose proof (Hev _ _ Hj E); set_solver|].
      destruct (sole_others_dropped _ _ _ _ H6 eq_refl NL NF (a_evh _ IA _ _ Hj) Hne) as (c0&Hc0).
      destruct (D2 F0 _ _ _ Hj Hc0) as [(m0&Hm0&Hin)|(t0&V0&Ht0&Hin)]; [|destruct (live_no_dropping _ _ _ _ IB HL Ht0 eq_refl)].
      rewrite Hl in Hm0. injection Hm0 as <-. set_solver.
    + intros t0 V0 h0 m0 H0 Hi. destruct (thr_set_neutral _ _ _ _ _ _ _ _ H1 H0) as [(_&_&[=])|[_ H]]. destruct (live_no_dropping _ _ _ _ IB HL H eq_refl).
    + intros t0 V0 j ev H0 Hi. destruct (thr_set_neutral _ _ _ _ _ _ _ _ H1 H0) as [(_&_&[=])|[_ H]]. destruct (live_no_dropping _ _ _ _ IB HL H eq_refl).
  - (* write *) destruct (b_uniq _ _ IB _ _ _ H1) as ((c&Hc)&NL&NP&NF). pose proof (counted_pos _ _ _ Hc eq_refl) as HL.
    pose proof (live_not_freed _ _ IB HL) as F0. destruct ID as [D1 D2 D3 D4 D5 D6 D7]. constructor; fields.
    + rewrite D1, F0. replace (sees _ _ _) with true; [done|]. symmetry. apply sees_spec. intros i ev Hi _. by eapply D5.
    + intros _ j ev c0 Hj Hc0. apply lookup_snoc_some in Hj as [[_ Hj]|[-> <-]]; [|simpl in Hc0; congruence].
      destruct (D2 F0 _ _ _ Hj Hc0) as [?|(t0&V0&H0&Hin)]; [by left|]. destruct (live_no_dropping _ _ _ _ IB HL H0 eq_refl).
    + intros w ev h0 s0 c0 Hw Hk Hh0 Hcnt. destruct (decide (h = h0)) as [->|Hne]; [|pose proof (counted_two _ _ _ _ _ Hc Hh0 eq_refl Hcnt Hne); lia].
      apply lookup_snoc_some in Hw as [[_ Hw]|[-> <-]]; [|by left]. destruct (D3 _ _ _ _ _ Hw Hk Hh0 Hcnt) as [?|?]; [by left|right; by apply ex_snoc].
    + intros w ev t0 V0 old0 c0 Hw Hk H0. destruct (thr_set_neutral _ _ _ _ _ _ _ _ H1 H0) as [(_&_&[=])|[_ H]]. pose proof (cloning_pos _ _ _ _ _ H). lia.
    + intros t0 V0 h0 j ev H0 Hj. destruct (thr_set_neutral _ _ _ _ _ _ _ _ H1 H0) as [(->&->&[= ->])|[Hn H]].
      * apply lookup_snoc_some in Hj as [[_ Hj]|[-> <-]]; [|set_solver]. apply elem_of_union_l. by eapply D5.
      * destruct Hn. exact (b_uniq1 _ _ IB _ _ _ _ _ _ H H1).
    + intros t0 V0 h0 m0 H0 Hi. destruct (thr_set_neutral _ _ _ _ _ _ _ _ H1 H0) as [(_&_&[=])|[_ H]]. destruct (live_no_dropping _ _ _ _ IB HL H eq_refl).
    + intros t0 V0 j ev H0 Hi. destruct (thr_set_neutral _ _ _ _ _ _ _ _ H1 H0) as [(_&_&[=])|[_ H]]. destruct (live_no_dropping _ _ _ _ IB HL H eq_refl).
  - (* end_mut *) destruct (b_uniq _ _ IB _ _ _ H1) as ((c'&Hc)&NL&NP&NF). pose proof (eq_trans (eq_sym H2) Hc) as [= -> <-]. clear H2. pose proof (counted_pos _ _ _ Hc eq_refl) as HL.
    destruct ID as [D1 D2 D3 D4 D5 D6 D7]. constructor; fields; try done.
    + intros F j ev c0 Hj Hc0. apply list_lookup_insert_Some in Hc0 as [(_&[=]&_)|[Hne Hc0]].
      destruct (D2 F _ _ _ Hj Hc0) as [?|(t0&V0&H0&Hin)]; [by left|]. destruct (live_no_dropping _ _ _ _ IB HL H0 eq_refl).
    + intros w ev h0 s0 c0 Hw Hk Hh0 Hcnt. apply list_lookup_insert_Some in Hh0 as [(->&[= <- <-]&_)|[Hne Hh0]]; [|by eapply D3]. by eapply D3.
    + intros w ev t0 V0 old0 c0 Hw Hk H0. destruct (thr_set_neutral _ _ _ _ _ _ _ _ H1 H0) as [(_&_&[=])|[_ H]]. by eapply D4.
    + intros t0 V0 h0 j ev H0 Hj. destruct (thr_set_neutral _ _ _ _ _ _ _ _ H1 H0) as [(_&_&[=])|[_ H]]. by eapply D5.
    + intros t0 V0 h0 m0 H0 Hi. destruct (thr_set_neutral _ _ _ _ _ _ _ _ H1 H0) as [(_&_&[=])|[_ H]]. by eapply D6.
    + intros t0 V0 j ev H0 Hi. destruct (thr_set_neutral _ _ _ _ _ _ _ _ H1 H0) as [(_&_&[=])|[_ H]]. by eapply D7.
  - destruct (b_uniq _ _ IB _ _ _ H1) as ((c0&Hc0)&_). congruence.
  - (* drop_sub *) pose proof (counted_live _ _ _ H4) as HL. pose proof (live_not_freed _ _ IB HL) as F0.
    apply excl_ok_spec in H2 as (c'&Hc'&_&Hev). rewrite H4 in Hc'. injection Hc' as <-.
    set (V' := V ∪ _) in *. set (p' := if (m_val m =? 1)%N then Dropping h else Idle).
    assert (Hp : p' = Dropping h \/ p' = Idle) by (unfold p'; destruct (m_val m =? 1)%N; auto). clearbody p'.
    destruct ID as [D1 D2 D3 D4 D5 D6 D7]. constructor; fields.
    + by rewrite D1, F0.
    + intros _ j ev c0 Hj Hc0. left. eexists. split; [by rewrite last_snoc|]. simpl.
      apply lookup_snoc_some in Hj as [[_ Hj]|[-> <-]]; [|set_solver].
      apply list_lookup_insert_Some in Hc0 as [(E&_&_)|[Hne Hc0]].
      * pose proof (Hev _ _ Hj (eq_sym E)). set_solver.
      * destruct (D2 F0 _ _ _ Hj Hc0) as [(m0&Hm0&Hin)|(t0&V0&H0&Hin)]; [|destruct (live_no_dropping _ _ _ _ IB HL H0 eq_refl)].
        rewrite H3 in Hm0. injection Hm0 as <-. set_solver.
    + intros w ev h0 s0 c0 Hw Hk Hh0 Hcnt. apply lookup_snoc_some in Hw as [[_ Hw]|[-> <-]]; [|done].
      apply list_lookup_insert_Some in Hh0 as [(->&[= <- <-]&_)|[Hne Hh0]]; [done|].
      destruct (D3 _ _ _ _ _ Hw Hk Hh0 Hcnt) as [?|?]; [by left|right; by apply ex_snoc].
    + intros w ev t0 V0 old0 c0 Hw Hk H0. apply lookup_snoc_some in Hw as [[_ Hw]|[-> <-]]; [|done].
      destruct (thr_set_neutral _ _ _ _ _ _ _ _ H1 H0) as [(_&_&E)|[_ H]]; [by destruct Hp as [->| ->]|]. by eapply ex_snoc, D4.
    + intros t0 V0 h0 j ev H0 Hj. destruct (thr_set_neutral _ _ _ _ _ _ _ _ H1 H0) as [(_&_&E)|[_ H]]; [by destruct Hp as [->| ->]|]. destruct (live_no_unique _ _ _ _ _ _ _ IB H4 H).
    + intros t0 V0 h0 m0 H0 Hl. rewrite last_snoc in Hl. injection Hl as <-. simpl. destruct (thr_set_neutral _ _ _ _ _ _ _ _ H1 H0) as [(_&->&E)|[_ H]]; [set_solver|].
      destruct (live_no_dropping _ _ _ _ IB HL H eq_refl).
    + intros t0 V0 j ev H0 Hi. destruct (thr_set_neutral _ _ _ _ _ _ _ _ H1 H0) as [(_&_&E)|[_ H]]; [by destruct Hp as [->| ->]|]. destruct (live_no_dropping _ _ _ _ IB HL H eq_refl).
  - (* drop_load *) destruct (b_drop _ _ IB _ _ H1 eq_refl) as [Z0 F0]. destruct ID as [D1 D2 D3 D4 D5 D6 D7].
    assert (last (msgs st) = Some m) as Hl.
    { destruct (last (msgs st)) as [ml|] eqn:Hl; [|apply last_None in Hl; by destruct (a_msgs _ IA)].
      pose proof (D6 _ _ _ _ H1 eq_refl) as Hin. pose proof Hl as (k&Hk&Ek)%last_elem. rewrite readable_spec in H2.
      destruct (decide (i < k)); [by destruct (H2 _ _ Hk)|]. pose proof (lookup_lt_Some _ _ _ H3). assert (i = k) as -> by lia. congruence. }
    assert (Hall : forall j ev, evs st !! j = Some ev -> j ∈ m_rel m).
    { intros j ev Hj. destruct (dead_all_dropped st (e_h ev)) as (c0&Hc0); [unfold total in *; lia..|by eapply a_evh|].
      destruct (D2 F0 _ _ _ Hj Hc0) as [(m0&Hm0&Hin)|(t0&V0&H0&Hin)]; [congruence|].
      assert (t0 = t) as -> by exact (b_drop1 _ _ IB _ _ _ _ H0 H1 eq_refl eq_refl). congruence. }
    set (V' := V ∪ _ ∪ _) in *. constructor; fields.
    + by rewrite D1, F0.
    + intros _ j ev c0 Hj Hc0. right. exists t, V'. split; [apply list_lookup_insert; by eapply lookup_lt_Some|].
      apply lookup_snoc_some in Hj as [[_ Hj]|[-> _]]; [pose proof (Hall _ _ Hj)|]; set_solver.
    + intros w ev h0 s0 c0 Hw Hk Hh0 Hcnt. pose proof (counted_pos _ _ _ Hh0 Hcnt). unfold total in *. lia.
    + intros w ev t0 V0 old0 c0 Hw Hk H0. destruct (thr_set_neutral _ _ _ _ _ _ _ _ H1 H0) as [(_&_&[=])|[_ H]]. pose proof (cloning_pos _ _ _ _ _ H). unfold total in *. lia.
    + intros t0 V0 h0 j ev H0 Hj. destruct (thr_set_neutral _ _ _ _ _ _ _ _ H1 H0) as [(_&_&[=])|[_ H]]. destruct (b_uniq _ _ IB _ _ _ H) as (_&?&_). unfold total in *. lia.
    + intros t0 V0 h0 m0 H0 Hi. destruct (thr_set_neutral _ _ _ _ _ _ _ _ H1 H0) as [(_&_&[=])|[_ H]]. by eapply D6.
    + intros t0 V0 j ev H0 Hj. destruct (thr_set_neutral _ _ _ _ _ _ _ _ H1 H0) as [(_&->&_)|[Hn H]].
      * apply lookup_snoc_some in Hj as [[_ Hj]|[-> _]]; [pose proof (Hall _ _ Hj)|]; set_solver.
      * destruct Hn. exact (b_drop1 _ _ IB _ _ _ _ H H1 eq_refl eq_refl).
  - (* free *) destruct (b_drop _ _ IB _ _ H1 eq_refl) as [Z0 F0]. destruct ID as [D1 D2 D3 D4 D5 D6 D7]. constructor; fields; try done.
    + rewrite D1, F0. replace (sees _ _ _) with true; [done|]. symmetry. apply sees_spec. intros i ev Hi _. by eapply D7.
    + intros w ev t0 V0 old0 c0 Hw Hk H0. destruct (thr_set_neutral _ _ _ _ _ _ _ _ H1 H0) as [(_&_&[=])|[_ H]]. by eapply D4.
    + intros t0 V0 h0 j ev H0 Hj. destruct (thr_set_neutral _ _ _ _ _ _ _ _ H1 H0) as [(_&_&[=])|[_ H]]. by eapply D5.
    + intros t0 V0 h0 m0 H0 Hi. destruct (thr_set_neutral _ _ _ _ _ _ _ _ H1 H0) as [(_&_&[=])|[_ H]]. by eapply D6.
    + intros t0 V0 j ev H0 Hi. destruct (thr_set_neutral _ _ _ _ _ _ _ _ H1 H0) as [(_&_&[=])|[_ H]]. by eapply D7.
  - (* forget *) destruct ID as [D1 D2 D3 D4 D5 D6 D7]. constructor; fields; try done.
    + intros F j ev c0 Hj Hc0. apply list_lookup_insert_Some in Hc0 as [(_&[=]&_)|[Hne Hc0]]. by eapply D2.
    + intros w ev h0 s0 c0 Hw Hk Hh0 Hcnt. apply list_lookup_insert_Some in Hh0 as [(->&[= <- <-]&_)|[Hne Hh0]]; [done|]. by eapply D3.
Qed.

(** ** Number of modifications *)
(** proof device, no counterpart in the code *)
Definition dropped (x : hstate * nat) : bool := match x.1 with Dropped => true | _ => false end.
(** proof device, no counterpart in the code *)
Definition invE (st : ast) : Prop := length (msgs st) = length (hs st) + nP st + cnt dropped (hs st).

Lemma nP_insert st t V p V' p' : thr st !! t = Some (TH V p) -> cnt cloning (<[t:=TH V' p']> (thr st)) + (if cloning (TH V p) then 1 else 0) = nP st + (if cloning (TH V' p') then 1 else 0).
Proof. intros H. exact (cnt_insert cloning _ _ _ _ H). Qed.
Lemma invE_step T a st st' : invB T st -> invE st -> astep a st = Some st' -> invE st'.
Proof.
  intros IB IE H. apply astep_shape in H as [_ H]. unfold invE in *.
  destruct H as [t1 t2 x [Vy py] H1 H2 ->|t h V m H1 H2 H3 ->|t V old e H1 H2 ->|t V old e H1 H2 ->|t h V H1 H2 ->
    |t h i V m H1 H2 H3 H4 H5 ->|t h i V m c H1 H2 H3 H4 H5 H6 ->|t h V H1 ->|t h V c s H1 H2 ->|t h V H1 H2 ->
    |t h V m c H1 H2 H3 H4 ->|t h i V m H1 H2 H3 ->|t V H1 ->|t h V c H1 H2 H3 ->]; cbn [t_view t_pend].
  - pose proof (nP_insert _ _ _ _ (Vy ∪ t_view x) py H2) as E. fields. unfold nP at 1; fields. unfold cloning in *; cbn [t_pend] in *. lia.
  - pose proof (nP_insert _ _ _ _ (V ∪ {[length (evs st)]}) (Cloning (m_val m) (length (evs st))) H1) as E. fields. unfold nP at 1; fields. unfold cloning in *; cbn [t_pend] in *. rewrite app_length; simpl. lia.
  - exact IE.
  - pose proof (nP_insert _ _ _ _ V Idle H1) as E. fields. unfold nP at 1; fields. rewrite cnt_app, app_length. unfold cloning in *; cbn [t_pend] in *. simpl. lia.
  - pose proof (nP_insert _ _ _ _ (V ∪ {[length (evs st)]}) Idle H1) as E. fields. unfold nP at 1; fields. unfold cloning in *; cbn [t_pend] in *. lia.
  - pose proof (nP_insert _ _ _ _ (V ∪ {[length (evs st)]} ∪ m_rel m) Idle H1) as E. fields. unfold nP at 1; fields. unfold cloning in *; cbn [t_pend] in *. lia.
  - pose proof (nP_insert _ _ _ _ (V ∪ {[length (evs st)]} ∪ m_rel m) (Unique h) H1) as E. pose proof (cnt_insert dropped _ _ _ (Borrowed, c) H6) as E'. simpl in E'.
    fields. unfold nP at 1; fields. unfold cloning in *; cbn [t_pend] in *. rewrite insert_length. lia.
  - pose proof (nP_insert _ _ _ _ (V ∪ {[length (evs st)]}) (Unique h) H1) as E. fields. unfold nP at 1; fields. unfold cloning in *; cbn [t_pend] in *. lia.
  - destruct (b_uniq _ _ IB _ _ _ H1) as ((c0&Hc0)&_). rewrite H2 in Hc0. injection Hc0 as -> ->.
    pose proof (nP_insert _ _ _ _ V Idle H1) as E. pose proof (cnt_insert dropped _ _ _ (Live, c0) H2) as E'. simpl in E'.
    fields. unfold nP at 1; fields. unfold cloning in *; cbn [t_pend] in *. rewrite insert_length. lia.
  - destruct (b_uniq _ _ IB _ _ _ H1) as ((c0&Hc0)&_). congruence.
  - set (p' := if (m_val m =? 1)%N then Dropping h else Idle). pose proof (nP_insert _ _ _ _ (V ∪ {[length (evs st)]}) p' H1) as E.
    assert (cloning (TH (V ∪ {[length (evs st)]}) p') = false) as Ec by (unfold p'; by destruct (m_val m =? 1)%N). rewrite Ec in E.
    pose proof (cnt_insert dropped _ _ _ (Dropped, c) H4) as E'. simpl in E'.
    fields. unfold nP at 1; fields. unfold cloning in *; cbn [t_pend] in *. rewrite insert_length, app_length. simpl. lia.
  - pose proof (nP_insert _ _ _ _ (V ∪ {[length (evs st)]} ∪ m_rel m) Freeing H1) as E. fields. unfold nP at 1; fields. unfold cloning in *; cbn [t_pend] in *. lia.
  - pose proof (nP_insert _ _ _ _ V Idle H1) as E. fields. unfold nP at 1; fields. unfold cloning in *; cbn [t_pend] in *. lia.
  - pose proof (cnt_insert dropped _ _ _ (Forgotten, c) H3) as E'. simpl in E'. fields. unfold nP; fields. fold (nP st). rewrite insert_length. lia.
Qed.

(** ** All reachable states *)
(** proof device, no counterpart in the code *)
Record inv (T : nat) (st : ast) : Prop := { i_A : invA st; i_B : invB T st; i_C : invC st; i_D : invD st; i_E : invE st }.

Lemma init_thr T t x : thr (a_init T) !! t = Some x -> t_pend x = Idle /\ forall e, e ∈ t_view x -> e = 0.
Proof.
  unfold a_init. cbn [thr]. destruct t as [|t]; simpl; [intros [= <-]; simpl; split; [done|set_solver]|].
  intros (->&_)%lookup_replicate. simpl. split; [done|set_solver].
Qed.
Lemma cnt_init T P : (forall V, P (TH V Idle) = false) -> cnt P (thr (a_init T)) = 0.
Proof. intros H. apply cnt_zero. intros i x Hx. apply init_thr in Hx as [Hp _]. destruct x as [V p]. simpl in Hp. by subst. Qed.
Lemma inv_init T : 1 <= T -> inv T (a_init T).
Proof.
  intros HT. assert (nP (a_init T) = 0) as EP by (by apply cnt_init). assert (nO (a_init T) = 0) as EO by (by apply cnt_init).
  assert (total (a_init T) = 1) as ET by (unfold total; rewrite EP; reflexivity).
  constructor.
  - constructor; try done.
    + intros t x e Ht He. apply init_thr in Ht as [_ H]. rewrite (H _ He). simpl. lia.
    + intros [|i] m e; [intros [= <-]; set_solver|done].
    + intros t x e ev Ht He Hev. pose proof (init_thr _ _ _ Ht) as [_ H]. assert (e = 0) as -> by auto. simpl in Hev. injection Hev as <-. set_solver.
    + intros [|i] m e ev; [intros [= <-]; set_solver|done].
    + intros [|i] ev; [intros [= <-]|done]. simpl. lia.
    + intros [|i] m; [intros [= <-]|done]. simpl. lia.
    + intros [|h] s c; [intros [= <- <-]|done]. exists 0. eexists. split; [done|]. done.
    + intros t V old e Ht. by apply init_thr in Ht as [[=] _].
    + intros t V h [Ht|Ht]; by apply init_thr in Ht as [[=] _].
  - constructor; rewrite ?ET, ?EO.
    + simpl. rewrite replicate_length. lia.
    + intros m. simpl. by intros [= <-].
    + lia.
    + intros t V h Ht. by apply init_thr in Ht as [[=] _].
    + intros t t' V V' h h' Ht. by apply init_thr in Ht as [[=] _].
    + intros t x Ht Hd. apply init_thr in Ht as [Hp _]. unfold dropping in Hd. by rewrite Hp in Hd.
    + intros t t' x x' Ht _ Hd. apply init_thr in Ht as [Hp _]. unfold dropping in Hd. by rewrite Hp in Hd.
    + simpl. split; [lia|done].
    + lia.
  - constructor.
    + intros h s c j mj i m m' _ _ _ _ _ _ _. by destruct i.
    + intros t V old e j mj i m Ht. by apply init_thr in Ht as [[=] _].
  - constructor; try done.
    + intros _ [|i] ev c; [intros [= <-]; done|done].
    + intros [|w] ev h s c; [intros [= <-]; done|done].
    + intros w ev t V old c _ _ Ht. by apply init_thr in Ht as [[=] _].
    + intros t V h i ev Ht. by apply init_thr in Ht as [[=] _].
    + intros t V h m Ht. by apply init_thr in Ht as [[=] _].
    + intros t V i ev Ht. by apply init_thr in Ht as [[=] _].
  - unfold invE. rewrite EP. reflexivity.
Qed.
Lemma inv_step T a st st' : (N.of_nat T < 2 ^ 63)%N -> inv T st -> astep a st = Some st' -> inv T st'.
Proof.
  intros HT [IA IB IC ID IE] H. constructor; [by eapply invA_step|by eapply invB_step|by eapply invC_step|by eapply invD_step|by eapply invE_step].
Qed.
Lemma inv_reaches T st : 1 <= T -> (N.of_nat T < 2 ^ 63)%N -> a_reaches T st -> inv T st.
Proof.
  intros H1 HT [acts H]. pose proof (inv_init T H1) as Hi. revert Hi H. generalize (a_init T). induction acts as [|a acts IH]; intros s Hi H; simpl in H; [by injection H as <-|].
  destruct (astep a s) as [s'|] eqn:E; [|done]. simpl in H. eapply IH; [|done]. by eapply inv_step.
Qed.
