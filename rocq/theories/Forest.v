(** * What mutation means: trees and positions (specification) *)
From Verif Require Export CursorMore.

(** remove child [i] of the node at [p] *)
Definition tdelete_child (t : tree) (p : pos) (i : nat) : tree :=
  match tsub t p with
  | Some (Node k cs) => treplace t p (Node k (take i cs ++ drop (S i) cs))
  | _ => t
  end.
(** make [new] child [i] of the node at [p] *)
Definition tinsert_child (t : tree) (p : pos) (i : nat) (new : tree) : tree :=
  match tsub t p with
  | Some (Node k cs) => treplace t p (Node k (take i cs ++ new :: drop i cs))
  | _ => t
  end.

(** [s] relative to [p], if [p] is a prefix of [s] *)
Fixpoint strip (p s : pos) : option pos :=
  match p, s with
  | [], _ => Some s
  | i :: p', j :: s' => if i =? j then strip p' s' else None
  | _ :: _, [] => None
  end.
(** where position [s] is after child [i] of [p] has become a tree of its own:
    [inl]: position in the new tree, [inr]: position in the old one *)
Definition pos_removed (p : pos) (i : nat) (s : pos) : pos + pos :=
  match strip p s with
  | Some (j :: s') => if j =? i then inl s' else inr (p ++ (if i <? j then pred j else j) :: s')
  | _ => inr s
  end.
(** where position [s] is after something has been inserted as child [i] of [p] *)
Definition pos_inserted (p : pos) (i : nat) (s : pos) : pos :=
  match strip p s with
  | Some (j :: s') => p ++ (if i <=? j then S j else j) :: s'
  | _ => s
  end.

(** ** Facts *)
Lemma strip_some p s u : strip p s = Some u <-> s = p ++ u.
Proof.
  revert s. induction p as [|i p IH]; intros s; simpl; [naive_solver|].
  destruct s as [|j s]; [naive_solver|]. destruct (Nat.eqb_spec i j) as [->|Hne]; [rewrite IH; naive_solver|naive_solver].
Qed.
Lemma strip_app p u : strip p (p ++ u) = Some u.
Proof. by apply strip_some. Qed.
Lemma strip_snoc_none p s k : strip p s = None -> strip p (s ++ [k]) = None \/ strip p (s ++ [k]) = Some [].
Proof.
  intros Hn. destruct (strip p (s ++ [k])) as [u|] eqn:E; [|by left]. right. f_equal.
  apply strip_some in E. destruct u as [|u z _] using rev_ind; [done|]. rewrite app_assoc in E.
  apply app_inj_tail in E as [-> _]. by rewrite strip_app in Hn.
Qed.
Lemma pos_removed_snoc p i s k : s <> p ->
  pos_removed p i (s ++ [k]) = match pos_removed p i s with inl u => inl (u ++ [k]) | inr u => inr (u ++ [k]) end.
Proof.
  intros Hs. unfold pos_removed. destruct (strip p s) as [[|j u]|] eqn:E.
  - apply strip_some in E. by rewrite app_nil_r in E.
  - apply strip_some in E as ->. rewrite <- app_assoc, strip_app. simpl. case_match; [done|]. by rewrite <- app_assoc.
  - by destruct (strip_snoc_none p s k E) as [-> | ->].
Qed.
Lemma pos_removed_child p i k :
  pos_removed p i (p ++ [k]) = if k =? i then inl [] else inr (p ++ [if i <? k then pred k else k]).
Proof. unfold pos_removed. by rewrite strip_app. Qed.
Lemma pos_removed_self p i : pos_removed p i p = inr p.
Proof. unfold pos_removed. rewrite <- (app_nil_r p) at 2. by rewrite strip_app. Qed.
Lemma pos_inserted_snoc p i s k : s <> p -> pos_inserted p i (s ++ [k]) = pos_inserted p i s ++ [k].
Proof.
  intros Hs. unfold pos_inserted. destruct (strip p s) as [[|j u]|] eqn:E.
  - apply strip_some in E. by rewrite app_nil_r in E.
  - apply strip_some in E as ->. rewrite <- app_assoc, strip_app. simpl. by rewrite <- app_assoc.
  - by destruct (strip_snoc_none p s k E) as [-> | ->].
Qed.
Lemma pos_inserted_child p i k : pos_inserted p i (p ++ [k]) = p ++ [if i <=? k then S k else k].
Proof. unfold pos_inserted. by rewrite strip_app. Qed.
Lemma pos_inserted_self p i : pos_inserted p i p = p.
Proof. unfold pos_inserted. rewrite <- (app_nil_r p) at 2. by rewrite strip_app. Qed.
