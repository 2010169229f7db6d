(** * Facts about the specification vocabulary (proofs only). *)
From Verif Require Export Spec.

(** proof device, no counterpart in the code *)
Fixpoint tree_ind' (P : tree -> Prop)
  (Hn : forall k cs, Forall P cs -> P (Node k cs))
  (Ht : forall k s, P (Token k s)) (t : tree) : P t :=
  match t with
  | Node k cs => Hn k cs ((fix go (cs : list tree) : Forall P cs :=
      match cs with
      | [] => Forall_nil_2 P
      | c :: cs' => Forall_cons_2 P c cs' (tree_ind' P Hn Ht c) (go cs')
      end) cs)
  | Token k s => Ht k s
  end.

(** proof device, no counterpart in the code *)
Definition ctext (cs : list tree) : str := concat (map ttext cs).
Lemma ttext_node k cs : ttext (Node k cs) = ctext cs.
Proof. done. Qed.
Lemma ctext_app cs1 cs2 : ctext (cs1 ++ cs2) = ctext cs1 ++ ctext cs2.
Proof. unfold ctext. by rewrite map_app, concat_app. Qed.
Lemma ctext_cons c cs : ctext (c :: cs) = ttext c ++ ctext cs.
Proof. done. Qed.
Lemma ctext_split cs i c :
  cs !! i = Some c -> ctext cs = ctext (take i cs) ++ ttext c ++ ctext (drop (S i) cs).
Proof.
  intros H. rewrite <- (take_drop_middle cs i c H) at 1.
  by rewrite ctext_app, ctext_cons.
Qed.
Lemma ttext_children t : is_node t = true -> ttext t = ctext (tchildren t).
Proof. by destruct t. Qed.

Lemma tsub_app t p q : tsub t (p ++ q) = match tsub t p with Some c => tsub c q | None => None end.
Proof.
  revert t. induction p as [|i p IH]; intros t; simpl; [done|].
  destruct (tchildren t !! i); [apply IH|done].
Qed.
Lemma tsub_snoc t p i :
  tsub t (p ++ [i]) = match tsub t p with Some c => tchildren c !! i | None => None end.
Proof. rewrite tsub_app. destruct (tsub t p); [|done]. simpl. by destruct (_ !! _). Qed.

Lemma tbefore_app t p q :
  tbefore t (p ++ q) = tbefore t p ++ match tsub t p with Some c => tbefore c q | None => [] end.
Proof.
  revert t. induction p as [|i p IH]; intros t; simpl; [done|].
  destruct (tchildren t !! i); rewrite <- app_assoc; [|done]. by rewrite IH.
Qed.
Lemma tbefore_snoc t p i c :
  tsub t p = Some c -> tbefore t (p ++ [i]) = tbefore t p ++ ctext (take i (tchildren c)).
Proof.
  intros H. rewrite tbefore_app, H. simpl. f_equal.
  destruct (tchildren c !! i); by rewrite app_nil_r.
Qed.

(** the text of an element sits in the text of the root right after the text before it *)
Lemma tbefore_split t p c : tsub t p = Some c -> exists q, ttext t = tbefore t p ++ ttext c ++ q.
Proof.
  revert t. induction p as [|i p IH]; intros t; simpl.
  - intros [= ->]. exists []. by rewrite app_nil_r.
  - destruct (tchildren t !! i) as [d|] eqn:E; [|done]. intros H.
    destruct (IH d H) as [q Hq].
    assert (Ht : ttext t = ctext (tchildren t)) by (apply ttext_children; by destruct t).
    rewrite Ht, (ctext_split _ _ _ E), Hq. exists (q ++ ctext (drop (S i) (tchildren t))).
    unfold ctext. by rewrite <- !app_assoc.
Qed.
Lemma tbefore_is_slice t p c :
  tsub t p = Some c ->
  is_slice (ttext t) (blen (tbefore t p)) (blen (tbefore t p) + blen (ttext c)) (ttext c).
Proof. intros H. destruct (tbefore_split t p c H) as [q Hq]. by exists (tbefore t p), q. Qed.

Lemma tbefore_bound t p c :
  tsub t p = Some c -> (blen (tbefore t p) + blen (ttext c) <= blen (ttext t))%N.
Proof. intros H. destruct (tbefore_split t p c H) as [q ->]. rewrite !blen_app. lia. Qed.

(** positions, with the inner loop named *)
Fixpoint positions_list (i : nat) (cs : list tree) : list pos :=
  match cs with
  | [] => []
  | c :: cs' => map (cons i) (positions c) ++ positions_list (S i) cs'
  end.
Lemma positions_node k cs : positions (Node k cs) = [] :: positions_list 0 cs.
Proof.
  reflexivity.
Qed.
Lemma elem_of_positions_list i cs p :
  p ∈ positions_list i cs <-> exists j q c, p = (i + j) :: q /\ cs !! j = Some c /\ q ∈ positions c.
Proof.
  revert i. induction cs as [|c cs IH]; intros i; simpl.
  - split; [by intros ?%elem_of_nil|]. intros (j&q&c&_&H&_). by rewrite lookup_nil in H.
  - rewrite elem_of_app, elem_of_list_In, in_map_iff, IH. split.
    + intros [(q&<-&Hq)|(j&q&d&->&Hd&Hq)].
      * exists 0, q, c. rewrite Nat.add_0_r. split; [done|]. split; [done|]. by apply elem_of_list_In.
      * exists (S j), q, d. split; [f_equal; lia|]. done.
    + intros ([|j]&q&d&->&Hd&Hq); simpl in Hd.
      * left. injection Hd as ->. exists q. rewrite Nat.add_0_r. split; [done|]. by apply elem_of_list_In.
      * right. exists j, q, d. split; [f_equal; lia|]. done.
Qed.
Lemma elem_of_positions t p : p ∈ positions t <-> is_Some (tsub t p).
Proof.
  revert p. induction t as [k cs IH|k s] using tree_ind'; intros p.
  - rewrite positions_node, elem_of_cons, elem_of_positions_list. destruct p as [|i p]; simpl.
    + split; [eauto|by left].
    + split.
      * intros [[=]|(j&q&c&[= -> ->]&Hc&Hq)]. rewrite Hc.
        rewrite Forall_lookup in IH. by apply (IH j c Hc).
      * destruct (cs !! i) as [c|] eqn:Hc; [|by intros [??]]. intros Hs.
        right. exists i, p, c. split; [done|]. split; [done|].
        rewrite Forall_lookup in IH. by apply (IH i c Hc).
  - simpl. rewrite elem_of_list_singleton. destruct p as [|i p]; simpl; [split; eauto|].
    split; [done|by intros [??]].
Qed.
Lemma NoDup_positions t : NoDup (positions t).
Proof.
  induction t as [k cs IH|k s] using tree_ind'.
  - rewrite positions_node. constructor.
    { rewrite elem_of_positions_list. by intros (j&q&c&[=]&_). }
    generalize 0. induction IH as [|c cs Hc Hcs IHcs]; intros i; simpl; [constructor|].
    apply NoDup_app. split; [|split; [|apply IHcs]].
    + apply NoDup_fmap_2; [|done]. by intros ?? [= ->].
    + intros p Hp Hp'. apply elem_of_list_In, in_map_iff in Hp as (q&<-&_).
      apply elem_of_positions_list in Hp' as (j&q'&c'&[= H1 ->]&_). lia.
  - simpl. apply NoDup_singleton.
Qed.

Lemma treplace_sub t p c new : tsub t p = Some c -> tsub (treplace t p new) p = Some new.
Proof.
  revert t. induction p as [|i p IH]; intros t; simpl; [done|].
  destruct t as [k cs|k s]; simpl; [|done].
  destruct (cs !! i) as [d|] eqn:E; [|done]. intros H.
  rewrite list_lookup_alter, E. simpl. by apply IH.
Qed.
Lemma treplace_text t p c new :
  tsub t p = Some c ->
  exists q, ttext t = tbefore t p ++ ttext c ++ q /\
            ttext (treplace t p new) = tbefore t p ++ ttext new ++ q.
Proof.
  revert t. induction p as [|i p IH]; intros t; simpl.
  - intros [= ->]. exists []. by rewrite !app_nil_r.
  - destruct t as [k cs|k s]; simpl; [|done].
    destruct (cs !! i) as [d|] eqn:E; [|done]. intros H.
    destruct (IH d H) as (q&Hq1&Hq2).
    exists (q ++ ctext (drop (S i) cs)). fold (ctext cs).
    assert (E' : alter (fun c0 => treplace c0 p new) i cs !! i = Some (treplace d p new)).
    { by rewrite list_lookup_alter, E. }
    fold (ctext (alter (fun c0 => treplace c0 p new) i cs)).
    rewrite (ctext_split _ _ _ E), (ctext_split _ _ _ E'), Hq1, Hq2.
    rewrite take_alter, drop_alter by lia. fold (ctext (take i cs)).
    by rewrite <- !app_assoc.
Qed.
