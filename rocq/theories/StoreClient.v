(** * An allocator, heights and chains for the theorems about the memory of green trees. *)
From Verif Require Export GreenOwn.
Local Open Scope nat_scope.

(** an allocator that meets [galloc_ok]: one above all addresses in use *)
Definition ex_al : nat -> gset addr -> addr := fun _ D => S (list_max (elements D)).
Lemma ex_al_ok : galloc_ok ex_al.
Proof.
  intros t D Ha. unfold ex_al in Ha. apply elem_of_elements, elem_of_list_In in Ha.
  pose proof (proj1 (list_max_le (elements D) _) (le_n _)) as H. rewrite List.Forall_forall in H. apply H in Ha. lia.
Qed.

(** height of a tree *)
Fixpoint theight (t : tree) : nat :=
  match t with Node _ cs => S (foldr (fun c n => theight c `max` n) 0 cs) | Token _ _ => 1 end.
Lemma gheight_erase g : gheight g = theight (erase g).
Proof.
  induction g as [a k tl cs IH|a k s] using green_ind'; simpl; [|done]. f_equal.
  induction cs as [|c cs IHc]; simpl; [done|]. apply Forall_cons in IH as [-> IH]. by rewrite IHc.
Qed.

Lemma gs_drop_rec_more d : forall a h r h', gs_drop_rec d a h = (Ok r, h') -> forall d', d <= d' -> gs_drop_rec d' a h = (Ok r, h').
Proof.
  induction d as [|d IH]; [done|]. intros a h r h' E d' Hd. destruct d' as [|d']; [lia|]. simpl in *.
    destruct (gmm h !! a) as [[[|[|n]] c]|]; try done. unfold mbind, gsm_bind in *.
    set (h1 := (gs_set a (0, GCTok (ckind c) []) h).2) in *. unfold gs_set in E |- *. simpl in h1. fold h1 in E |- *.
    assert (Hall : forall l h1 h2, gs_each (gs_drop_rec d) l h1 = (Ok (), h2) -> gs_each (gs_drop_rec d') l h1 = (Ok (), h2)).
    { clear -IH Hd. induction l as [|x l IHl]; intros h1 h2; simpl; [done|]. unfold mbind, gsm_bind.
      destruct (gs_drop_rec d x h1) as [[[]|] h3] eqn:E3; [|done]. rewrite (IH _ _ _ _ E3 d' ltac:(lia)). apply IHl. }
    destruct (gs_each (gs_drop_rec d) (cslots c) h1) as [[[]|] h2] eqn:E2; [|done]. rewrite (Hall _ _ _ E2). exact E.
Qed.

(** ** Chains *)
(** a program that nests one node per call *)
Definition chain_prog (n : nat) : list gop := GOToken 1 [] :: map (fun i => GONode 2 [i]) (seq 0 n).
(** and the tree it builds *)
Fixpoint chain_tree (n : nat) : tree := match n with 0 => Token 1 [] | S n => Node 2 [chain_tree n] end.
Lemma chain_text n : ttext (chain_tree n) = [].
Proof. induction n as [|n IH]; simpl; [done|]. by rewrite IH. Qed.
Lemma chain_height n : theight (chain_tree n) = S n.
Proof. induction n as [|n IH]; simpl; [done|]. rewrite IH. lia. Qed.
Lemma s_grun_app pr p1 p2 st : s_grun pr (p1 ++ p2) st =
  match s_grun pr p1 st with
  | Some (b1, st1) => match s_grun pr p2 st1 with Some (b2, st2) => Some (b1 ++ b2, st2) | None => None end
  | None => None
  end.
Proof.
  revert st. induction p1 as [|o p1 IH]; intros st; simpl; [by destruct (s_grun pr p2 st) as [[? ?]|]|].
  destruct (s_gstep pr o st) as [[b st1]|]; [|done]. rewrite IH. destruct (s_grun pr p1 st1) as [[b1 st2]|]; [|done].
  by destruct (s_grun pr p2 st2) as [[? ?]|].
Qed.
Lemma chain_run n : exists obs, s_grun Checked (chain_prog n) ([], []) = Some (obs, (replicate n None ++ [Some (chain_tree n)], [])).
Proof.
  induction n as [|n IH]; [by eexists|]. destruct IH as [obs IH]. unfold chain_prog in *. rewrite seq_S, map_app, app_comm_cons.
  rewrite s_grun_app, IH. simpl.
  rewrite lookup_app_r by (rewrite replicate_length; lia). rewrite replicate_length, Nat.sub_diag. simpl.
  unfold s_new. simpl. rewrite chain_text. simpl. eexists. do 3 f_equal.
  rewrite insert_app_r_alt by (rewrite replicate_length; lia). rewrite replicate_length, Nat.sub_diag. simpl.
  by rewrite <-replicate_S_end.
Qed.
Lemma chain_is_chain g n : erase g = chain_tree n -> is_chain g = true.
Proof.
  revert n. induction g as [a k tl cs IH|a k s] using green_ind'; intros n; [|done].
  destruct n as [|n]; simpl; [done|]. destruct cs as [|c [|? ?]]; simpl; [done| |done]. intros [= _ H].
  apply Forall_cons in IH as [IH _]. by eapply IH.
Qed.
