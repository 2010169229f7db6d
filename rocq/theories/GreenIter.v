(** * GreenNodeData::children(): src/green/node.rs:274-358

    [slice::Iter] is a window [lo, hi) on the child slice; [Children] forwards
    to it and maps [GreenChild::as_ref]. *)
From Verif Require Export GreenFacts.

(** green/node.rs:275-277 [Children]: a slice iterator *)
Record children_iter := { ci_slice : list (N * green); ci_lo : nat; ci_hi : nat }.
(** node.rs:138 [children] *)
Definition green_children (g : green) : children_iter :=
  {| ci_slice := gchildren g; ci_lo := 0; ci_hi := length (gchildren g) |}.
(** node.rs:280-285 [len], 300-306 [count], 296 [size_hint] *)
Definition ci_len (it : children_iter) : nat := ci_hi it - ci_lo it.
(** node.rs:291 [next] *)
Definition ci_next (it : children_iter) : option green * children_iter :=
  if ci_lo it <? ci_hi it
  then (snd <$> ci_slice it !! ci_lo it, {| ci_slice := ci_slice it; ci_lo := S (ci_lo it); ci_hi := ci_hi it |})
  else (None, it).
(** node.rs:336 [next_back]; also 314-319 [last] *)
Definition ci_next_back (it : children_iter) : option green * children_iter :=
  if ci_lo it <? ci_hi it
  then (snd <$> ci_slice it !! (ci_hi it - 1), {| ci_slice := ci_slice it; ci_lo := ci_lo it; ci_hi := ci_hi it - 1 |})
  else (None, it).
(** node.rs:309 [nth] (slice::Iter::nth) *)
Definition ci_nth (n : nat) (it : children_iter) : option green * children_iter :=
  if ci_len it <=? n
  then (None, {| ci_slice := ci_slice it; ci_lo := ci_hi it; ci_hi := ci_hi it |})
  else ci_next {| ci_slice := ci_slice it; ci_lo := ci_lo it + n; ci_hi := ci_hi it |}.
(** node.rs:341 [nth_back] (slice::Iter::nth_back) *)
Definition ci_nth_back (n : nat) (it : children_iter) : option green * children_iter :=
  if ci_len it <=? n
  then (None, {| ci_slice := ci_slice it; ci_lo := ci_lo it; ci_hi := ci_lo it |})
  else ci_next_back {| ci_slice := ci_slice it; ci_lo := ci_lo it; ci_hi := ci_hi it - n |}.
(** node.rs:322-331 [fold]: [for x in self] *)
Fixpoint ci_fold {A} (fuel : nat) (f : A -> green -> A) (acc : A) (it : children_iter) : res A :=
  match fuel with
  | 0 => Err Diverge
  | S fuel' => match ci_next it with
               | (Some x, it') => ci_fold fuel' f (f acc x) it'
               | (None, _) => Ok acc
               end
  end.
(** node.rs:346-355 [rfold] *)
Fixpoint ci_rfold {A} (fuel : nat) (f : A -> green -> A) (acc : A) (it : children_iter) : res A :=
  match fuel with
  | 0 => Err Diverge
  | S fuel' => match ci_next_back it with
               | (Some x, it') => ci_rfold fuel' f (f acc x) it'
               | (None, _) => Ok acc
               end
  end.

(** the calls a client can make: green/node.rs:280-356 *)
Inductive iop := INext | INextBack | INth (n : nat) | INthBack (n : nat).
(** green/node.rs:280-356: one call *)
Definition ci_op (o : iop) (it : children_iter) : option green * children_iter :=
  match o with
  | INext => ci_next it | INextBack => ci_next_back it
  | INth n => ci_nth n it | INthBack n => ci_nth_back n it
  end.
(** a sequence of calls *)
Fixpoint ci_run (ops : list iop) (it : children_iter) : list (option green) * children_iter :=
  match ops with
  | [] => ([], it)
  | o :: ops' => let '(x, it') := ci_op o it in
                 let '(xs, it'') := ci_run ops' it' in (x :: xs, it'')
  end.

(** ** Specification: a double-ended queue *)
(** specification: taking from a double-ended queue *)
Definition dq_op {A} (o : iop) (l : list A) : option A * list A :=
  match o with
  | INext => (head l, tail l)
  | INextBack => (last l, take (length l - 1) l)
  | INth n => (l !! n, drop (S n) l)
  | INthBack n => (reverse l !! n, take (length l - S n) l)
  end.
(** specification: the same calls on a list taken from at both ends *)
Fixpoint dq_run {A} (ops : list iop) (l : list A) : list (option A) * list A :=
  match ops with
  | [] => ([], l)
  | o :: ops' => let '(x, l') := dq_op o l in
                 let '(xs, l'') := dq_run ops' l' in (x :: xs, l'')
  end.

(** ** Proofs *)
(** helper: what has not been returned yet *)
Definition ci_rest (it : children_iter) : list green :=
  map snd (take (ci_hi it - ci_lo it) (drop (ci_lo it) (ci_slice it))).
(** helper: the two ends have not crossed *)
Definition ci_wf (it : children_iter) : Prop := ci_lo it <= ci_hi it <= length (ci_slice it).

Lemma ci_rest_length it : ci_wf it -> length (ci_rest it) = ci_len it.
Proof. intros [H1 H2]. unfold ci_rest, ci_len. rewrite length_map, take_length, drop_length. lia. Qed.
Lemma ci_rest_lookup it i : i < ci_len it -> ci_rest it !! i = snd <$> ci_slice it !! (ci_lo it + i).
Proof.
  intros H. unfold ci_rest, ci_len in *. rewrite lookup_map, lookup_take by lia. by rewrite lookup_drop.
Qed.
Lemma ci_rest_ext it (l : list green) :
  ci_wf it -> length l = ci_len it -> (forall i, i < ci_len it -> l !! i = snd <$> ci_slice it !! (ci_lo it + i)) ->
  ci_rest it = l.
Proof.
  intros Hw Hl H. apply list_eq. intros i. destruct (decide (i < ci_len it)).
  - by rewrite ci_rest_lookup, H.
  - rewrite !lookup_ge_None_2; [done|lia|]. rewrite ci_rest_length by done. lia.
Qed.
Lemma ci_op_spec o it :
  ci_wf it ->
  let '(x, it') := ci_op o it in
  dq_op o (ci_rest it) = (x, ci_rest it') /\ ci_wf it'.
Proof.
  intros Hw. pose proof (ci_rest_length it Hw) as Hlen. destruct Hw as [H1 H2].
  assert (Hnil : ci_lo it = ci_hi it -> ci_rest it = []).
  { intros E. apply nil_length_inv. rewrite Hlen. unfold ci_len. lia. }
  assert (Hn : forall n, n < ci_len it ->
    ci_rest {| ci_slice := ci_slice it; ci_lo := S (ci_lo it + n); ci_hi := ci_hi it |} = drop (S n) (ci_rest it)).
  { intros n Hn. apply ci_rest_ext; unfold ci_wf, ci_len in *; simpl; [lia|rewrite drop_length; lia|].
    intros i Hi. rewrite lookup_drop, ci_rest_lookup by (unfold ci_len; lia). do 2 f_equal. lia. }
  assert (Hb : forall n, n < ci_len it ->
    ci_rest {| ci_slice := ci_slice it; ci_lo := ci_lo it; ci_hi := ci_hi it - n - 1 |} =
      take (length (ci_rest it) - S n) (ci_rest it)).
  { intros n Hn'. apply ci_rest_ext; unfold ci_wf, ci_len in *; simpl; [lia|rewrite take_length; lia|].
    intros i Hi. rewrite lookup_take by lia. rewrite ci_rest_lookup by (unfold ci_len; lia). done. }
  destruct o as [| |n|n]; simpl.
  - unfold ci_next. destruct (Nat.ltb_spec (ci_lo it) (ci_hi it)) as [H|H].
    + split; [|unfold ci_wf; simpl; lia].
      rewrite head_lookup, ci_rest_lookup by (unfold ci_len; lia). rewrite Nat.add_0_r. f_equal.
      rewrite <- (Nat.add_0_r (ci_lo it)) at 1. rewrite Hn by (unfold ci_len; lia).
      destruct (ci_rest it); [done|]. simpl. by rewrite drop_0.
    + rewrite Hnil by lia. done.
  - unfold ci_next_back. destruct (Nat.ltb_spec (ci_lo it) (ci_hi it)) as [H|H].
    + split; [|unfold ci_wf; simpl; lia].
      rewrite last_lookup, Hlen. rewrite ci_rest_lookup by (unfold ci_len; lia).
      replace (ci_lo it + Nat.pred (ci_len it)) with (ci_hi it - 1) by (unfold ci_len; lia). f_equal.
      specialize (Hb 0 ltac:(unfold ci_len; lia)). rewrite Nat.sub_0_r in Hb. rewrite Hb, Hlen. done.
    + rewrite Hnil by lia. done.
  - unfold ci_nth. destruct (Nat.leb_spec (ci_len it) n) as [H|H].
    + split; [|unfold ci_wf; simpl; lia]. rewrite lookup_ge_None_2 by lia. rewrite drop_ge by lia.
      f_equal. unfold ci_rest. simpl. by rewrite Nat.sub_diag.
    + unfold ci_next. simpl. unfold ci_len in H. rewrite (proj2 (Nat.ltb_lt _ _)) by lia.
      split; [|unfold ci_wf; simpl; lia].
      rewrite ci_rest_lookup by (unfold ci_len; lia). f_equal.
      rewrite Hn by (unfold ci_len; lia). done.
  - unfold ci_nth_back. destruct (Nat.leb_spec (ci_len it) n) as [H|H].
    + split; [|unfold ci_wf; simpl; lia].
      rewrite lookup_ge_None_2 by (rewrite reverse_length; lia). f_equal.
      rewrite Hlen. replace (ci_len it - S n) with 0 by lia. unfold ci_rest. simpl. by rewrite Nat.sub_diag.
    + unfold ci_next_back. simpl. unfold ci_len in H. rewrite (proj2 (Nat.ltb_lt _ _)) by lia.
      split; [|unfold ci_wf; simpl; lia].
      rewrite reverse_lookup by (rewrite Hlen; unfold ci_len; lia). rewrite Hlen.
      rewrite ci_rest_lookup by (unfold ci_len; lia).
      replace (ci_lo it + (ci_len it - S n)) with (ci_hi it - n - 1) by (unfold ci_len; lia). f_equal.
      rewrite <- Hlen. rewrite <- Hb by (unfold ci_len; lia). done.
Qed.
Lemma ci_run_spec ops it :
  ci_wf it ->
  let '(xs, it') := ci_run ops it in
  dq_run ops (ci_rest it) = (xs, ci_rest it') /\ ci_wf it'.
Proof.
  revert it. induction ops as [|o ops IH]; intros it Hw; simpl; [done|].
  pose proof (ci_op_spec o it Hw) as H. destruct (ci_op o it) as [x it1].
  destruct H as [H1 H2]. specialize (IH it1 H2). destruct (ci_run ops it1) as [xs it2].
  destruct IH as [H3 H4]. rewrite H1, H3. done.
Qed.
Lemma green_children_wf g : ci_wf (green_children g).
Proof. unfold ci_wf. simpl. lia. Qed.
Lemma green_children_rest g : ci_rest (green_children g) = kids g.
Proof. unfold ci_rest, kids. simpl. by rewrite drop_0, Nat.sub_0_r, take_ge by lia. Qed.

Lemma green_children_run g ops :
  let '(xs, it) := ci_run ops (green_children g) in
  xs = fst (dq_run ops (kids g)) /\ ci_len it = length (snd (dq_run ops (kids g))).
Proof.
  pose proof (ci_run_spec ops (green_children g) (green_children_wf g)) as H.
  destruct (ci_run ops (green_children g)) as [xs it]. destruct H as [H1 H2].
  rewrite green_children_rest in H1. rewrite H1. simpl. by rewrite ci_rest_length.
Qed.
Lemma ci_fold_spec {A} (f : A -> green -> A) acc it fuel :
  ci_wf it -> ci_len it < fuel -> ci_fold fuel f acc it = Ok (fold_left f (ci_rest it) acc).
Proof.
  revert acc it. induction fuel as [|fuel IH]; intros acc it Hw Hf; [lia|].
  pose proof (ci_op_spec INext it Hw) as H. simpl in H |- *. destruct (ci_next it) as [x it'] eqn:E.
  destruct H as [H1 H2]. pose proof (ci_rest_length it Hw). pose proof (ci_rest_length it' H2).
  destruct (ci_rest it) as [|y l] eqn:El; simpl in H1; injection H1 as <- Hl; [done|].
  simpl in *. rewrite IH; [by rewrite <- Hl|done|]. rewrite <- Hl in *. lia.
Qed.
Lemma ci_rfold_spec {A} (f : A -> green -> A) acc it fuel :
  ci_wf it -> ci_len it < fuel -> ci_rfold fuel f acc it = Ok (fold_left f (reverse (ci_rest it)) acc).
Proof.
  revert acc it. induction fuel as [|fuel IH]; intros acc it Hw Hf; [lia|].
  pose proof (ci_op_spec INextBack it Hw) as H. simpl in H |- *. destruct (ci_next_back it) as [x it'] eqn:E.
  destruct H as [H1 H2]. pose proof (ci_rest_length it Hw). pose proof (ci_rest_length it' H2).
  destruct (ci_rest it) as [|y l _] eqn:El using rev_ind; [by injection H1 as <- Hl|].
  rewrite last_snoc in H1. injection H1 as <- Hl. rewrite app_length in *. simpl in *.
  rewrite Nat.add_sub, take_app in Hl. rewrite IH; [|done|rewrite <- Hl in *; lia].
  rewrite reverse_snoc, <- Hl. done.
Qed.
