(** * Circular doubly linked lists, as pairs of functions (proofs only). *)
From Verif Require Export Heap.

Section chain.
Context (nx pv : id -> option id).
(** consecutive elements point at each other *)
Fixpoint chain (l : list id) : Prop :=
  match l with
  | x :: (y :: _) as l' => nx x = Some y /\ pv y = Some x /\ chain l'
  | _ => True
  end.
(** proof device, no counterpart in the code *)
Definition circ (l : list id) : Prop := match l with [] => True | x :: _ => chain (l ++ [x]) end.
End chain.

Lemma chain_cons nx pv x y l : chain nx pv (x :: y :: l) <-> nx x = Some y /\ pv y = Some x /\ chain nx pv (y :: l).
Proof. done. Qed.
Lemma chain_app nx pv l1 x l2 : chain nx pv (l1 ++ x :: l2) <-> chain nx pv (l1 ++ [x]) /\ chain nx pv (x :: l2).
Proof.
  induction l1 as [|a l1 IH]; simpl app.
  - split; [by intros|by intros [_ ?]].
  - destruct l1 as [|b l1]; simpl app in *.
    + rewrite !chain_cons. split; [|by intros [(?&?&_) ?]]. intros (?&?&?). by repeat split.
    + rewrite !chain_cons, IH. naive_solver.
Qed.
Lemma circ_rot nx pv l1 l2 : circ nx pv (l1 ++ l2) <-> circ nx pv (l2 ++ l1).
Proof.
  destruct l1 as [|x l1]; [by rewrite app_nil_r|]. destruct l2 as [|y l2]; [by rewrite app_nil_r|].
  change (chain nx pv (((x :: l1) ++ (y :: l2)) ++ [x]) <-> chain nx pv (((y :: l2) ++ (x :: l1)) ++ [y])).
  rewrite <- !app_assoc.
  change (chain nx pv ((x :: l1) ++ y :: (l2 ++ [x])) <-> chain nx pv ((y :: l2) ++ x :: (l1 ++ [y]))).
  rewrite (chain_app _ _ (x :: l1) y (l2 ++ [x])), (chain_app _ _ (y :: l2) x (l1 ++ [y])).
  split; intros [? ?]; split; assumption.
Qed.
Lemma circ_mid nx pv l1 e l2 : circ nx pv (l1 ++ e :: l2) <-> chain nx pv (e :: l2 ++ l1 ++ [e]).
Proof. rewrite circ_rot. change (chain nx pv (e :: ((l2 ++ l1) ++ [e])) <-> chain nx pv (e :: l2 ++ l1 ++ [e])). by rewrite <- app_assoc. Qed.

Lemma chain_frame nx pv nx' pv' l :
  chain nx pv l ->
  (forall x k, l !! k = Some x -> S k < length l -> nx' x = nx x) ->
  (forall y k, l !! S k = Some y -> pv' y = pv y) ->
  chain nx' pv' l.
Proof.
  induction l as [|x l IH]; [done|]. destruct l as [|y l]; [done|]. rewrite !chain_cons.
  intros (H1&H2&H3) Hn Hp. split_and!.
  - rewrite (Hn x 0); [done|done|simpl; lia].
  - by rewrite (Hp y 0).
  - apply IH; [done| |].
    + intros z k Hz Hk. apply (Hn z (S k)); [done|simpl in *; lia].
    + intros z k Hz. apply (Hp z (S k)). done.
Qed.
Lemma circ_frame nx pv nx' pv' l :
  circ nx pv l -> (forall x, x ∈ l -> nx' x = nx x /\ pv' x = pv x) -> circ nx' pv' l.
Proof.
  destruct l as [|x l]; [done|]. unfold circ. intros H Hf. eapply chain_frame; [exact H| |].
  - intros y k Hy Hk. apply Hf. apply elem_of_list_lookup_2 in Hy. rewrite elem_of_app, elem_of_list_singleton in Hy.
    destruct Hy as [?| ->]; [done|left].
  - intros y k Hy. apply Hf. apply elem_of_list_lookup_2 in Hy. rewrite elem_of_app, elem_of_list_singleton in Hy.
    destruct Hy as [?| ->]; [done|left].
Qed.

(** the successor of [e] *)
Definition succ_of (l1 : list id) (e : id) (l2 : list id) : id := default e (head (l2 ++ l1)).
(** proof device, no counterpart in the code *)
Definition pred_of (l1 : list id) (e : id) (l2 : list id) : id := default e (last (l2 ++ l1)).
Lemma circ_succ nx pv l1 e l2 : circ nx pv (l1 ++ e :: l2) -> nx e = Some (succ_of l1 e l2) /\ pv (succ_of l1 e l2) = Some e.
Proof.
  intros H%circ_mid. rewrite app_assoc in H. unfold succ_of. destruct (l2 ++ l1) as [|z r]; simpl in *; naive_solver.
Qed.
Lemma circ_pred nx pv l1 e l2 : circ nx pv (l1 ++ e :: l2) -> pv e = Some (pred_of l1 e l2) /\ nx (pred_of l1 e l2) = Some e.
Proof.
  intros H%circ_mid. rewrite app_assoc in H. unfold pred_of.
  destruct (l2 ++ l1) as [|z r _] using rev_ind; [simpl in *; naive_solver|].
  rewrite last_snoc. simpl. rewrite <- app_assoc in H. simpl in H.
  apply (chain_app _ _ (e :: r) z [e]) in H as [_ H]. simpl in H. naive_solver.
Qed.
Lemma succ_in l1 e l2 : succ_of l1 e l2 ∈ l1 ++ e :: l2.
Proof.
  unfold succ_of. destruct (l2 ++ l1) as [|z r] eqn:E; simpl; [set_solver|].
  assert (z ∈ l2 ++ l1) by (rewrite E; left). set_solver.
Qed.
Lemma pred_in l1 e l2 : pred_of l1 e l2 ∈ l1 ++ e :: l2.
Proof.
  unfold pred_of. destruct (last (l2 ++ l1)) as [z|] eqn:E; simpl; [|set_solver].
  apply last_Some in E as [l' E]. assert (z ∈ l2 ++ l1) by (rewrite E; set_solver). set_solver.
Qed.

(** insertion after [c] *)
Lemma circ_insert nx pv nx' pv' l1 c l2 e :
  circ nx pv (l1 ++ c :: l2) -> NoDup (l1 ++ c :: l2) -> e ∉ l1 ++ c :: l2 ->
  let n := succ_of l1 c l2 in
  nx' c = Some e -> pv' n = Some e -> pv' e = Some c -> nx' e = Some n ->
  (forall x, x <> c -> x <> e -> nx' x = nx x) -> (forall x, x <> n -> x <> e -> pv' x = pv x) ->
  circ nx' pv' (l1 ++ c :: e :: l2).
Proof.
  intros H%circ_mid Hnd He n H1 H2 H3 H4 Hn Hp. apply circ_mid. simpl app.
  assert (Hnd' : NoDup (c :: (l2 ++ l1))).
  { rewrite <- (app_nil_l (c :: _)). eapply NoDup_Permutation_proper; [|exact Hnd]. simpl.
    rewrite <- Permutation_middle. constructor. apply Permutation_app_comm. }
  assert (He' : e ∉ c :: (l2 ++ l1)) by set_solver. clear Hnd He.
  subst n. unfold succ_of in *. rewrite app_assoc in H |- *. set (r := l2 ++ l1) in *. clearbody r.
  destruct r as [|z r]; simpl in *; [naive_solver|]. split; [done|]. split; [done|]. split; [done|]. split; [done|].
  destruct H as (_&_&H). change (chain nx' pv' ((z :: r) ++ [c])). change (chain nx pv ((z :: r) ++ [c])) in H.
  inversion_clear Hnd' as [|?? Hc Hnd]. inversion_clear Hnd as [|?? Hz Hnd'].
  eapply chain_frame; [exact H| |].
  - intros x k Hx Hk. rewrite app_length in Hk. simpl in Hk. rewrite lookup_app_l in Hx by (simpl; lia).
    apply elem_of_list_lookup_2 in Hx. apply Hn; set_solver.
  - intros y k Hy. simpl in Hy. apply elem_of_list_lookup_2 in Hy. apply Hp; set_solver.
Qed.
(** removal of [e] *)
Lemma circ_remove nx pv nx' pv' l1 e l2 :
  circ nx pv (l1 ++ e :: l2) -> NoDup (l1 ++ e :: l2) ->
  let n := succ_of l1 e l2 in let p := pred_of l1 e l2 in
  (n <> e -> nx' p = Some n /\ pv' n = Some p) ->
  (forall x, x <> p -> x <> e -> nx' x = nx x) -> (forall x, x <> n -> x <> e -> pv' x = pv x) ->
  circ nx' pv' (l1 ++ l2).
Proof.
  intros H%circ_mid Hnd n p Hnp Hn Hp. apply circ_rot.
  assert (Hnd' : NoDup (e :: (l2 ++ l1))).
  { eapply NoDup_Permutation_proper; [|exact Hnd]. 
    rewrite <- Permutation_middle. constructor. apply Permutation_app_comm. }
  clear Hnd. subst n p. unfold succ_of, pred_of in *. rewrite app_assoc in H.
  set (r := l2 ++ l1) in *. clearbody r. inversion_clear Hnd' as [|?? He Hnd].
  destruct r as [|z r]; [done|]. unfold circ. 
  destruct (last (z :: r)) as [y|] eqn:El; [|by apply last_None in El].
  simpl default in *. destruct (Hnp ltac:(set_solver)) as [Hp1 Hp2].
  apply last_Some in El as [r' Er]. rewrite Er in *. rewrite <- app_assoc. simpl app.
  apply chain_app. split; [|by simpl].
  assert (chain nx pv (r' ++ [y])) as H'.
  { rewrite <- Er in H. destruct H as (_&_&H). change (chain nx pv ((z :: r) ++ [e])) in H.
    rewrite Er, <- app_assoc in H. by apply (chain_app _ _ r' y [e]) in H as [? _]. }
  eapply chain_frame; [exact H'| |].
  - intros x k Hx Hk. rewrite app_length in Hk. simpl in Hk. rewrite lookup_app_l in Hx by lia.
    apply elem_of_list_lookup_2 in Hx. apply Hn; [|set_solver]. apply NoDup_app in Hnd as (_&Hd&_).
    intros ->. apply (Hd y Hx). set_solver.
  - intros x k Hx. apply Hp.
    + intros ->. pose proof (NoDup_lookup _ 0 (S k) z Hnd) as HH. rewrite <- Er in HH, Hx.
      specialize (HH eq_refl Hx). lia.
    + intros ->. apply elem_of_list_lookup_2 in Hx. done.
Qed.
Lemma circ_singleton nx pv e : nx e = Some e -> pv e = Some e -> circ nx pv [e].
Proof. intros. simpl. done. Qed.
Lemma succ_self l1 e l2 : NoDup (l1 ++ e :: l2) -> succ_of l1 e l2 = e <-> l1 ++ l2 = [].
Proof.
  intros H. unfold succ_of. split.
  - destruct (l2 ++ l1) as [|z r] eqn:E; simpl.
    + intros _. apply app_nil in E as [-> ->]. done.
    + intros ->. apply NoDup_Permutation_proper with (y := e :: (l2 ++ l1)) in H.
      * rewrite E in H. inversion_clear H as [|?? He _]. set_solver.
      * rewrite <- Permutation_middle. constructor. apply Permutation_app_comm.
  - intros [-> ->]%app_nil. done.
Qed.
