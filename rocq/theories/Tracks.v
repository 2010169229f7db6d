(** * Programs on handles and the functions of layer 4

    A program that only reads does on any tree what the function on cursors does on the
    immutable tree of the same shape. *)
From Verif Require Export Script.

(** the functions of Cursor.v behind the calls of Client.v *)
(** the functions of Cursor.v by the name of the call; cursor.rs:666-668, 685-759, 796-824 *)
Definition c_nav (n : nav) (c : cursor) : res (option cursor) :=
  match n with
  | NParent => Ok (c_parent c)
  | NFirstChild => first_child c
  | NLastChild => last_child c
  | NFirstChildByKind m => first_child_by_kind m c
  | NFirstChildOrToken => first_child_or_token c
  | NLastChildOrToken => last_child_or_token c
  | NFirstChildOrTokenByKind m => first_child_or_token_by_kind m c
  | NNextSibling => next_sibling c
  | NPrevSibling => prev_sibling c
  | NNextSiblingByKind m => next_sibling_by_kind m c
  | NNextSiblingOrToken => next_sibling_or_token c
  | NPrevSiblingOrToken => prev_sibling_or_token c
  | NNextSiblingOrTokenByKind m => next_sibling_or_token_by_kind m c
  end.

Section nav.
Context (root : green) (Hwf : wfg root).
(** proof device, no counterpart in the code *)
Definition cin (c : cursor) : Prop := cursor_at root (c_path c) = Some c.
Lemma cin_at p c : cursor_at root p = Some c -> cin c /\ c_path c = p.
Proof. intros H. destruct (cursor_at_path _ _ _ H) as [E _]. unfold cin. by rewrite E. Qed.
Lemma cin_tsub c : cin c -> tsub (erase root) (c_path c) = Some (erase (c_green c)).
Proof. apply cursor_at_tsub. Qed.
Lemma cin_child_inv c0 i off g : cin (CChild c0 i off g) ->
  cin c0 /\ exists ch, gchildren (c_green c0) !! i = Some ch /\ off = (c_offset c0 + ch.1)%N /\ g = ch.2.
Proof.
  unfold cin. change (c_path (CChild c0 i off g)) with (c_path c0 ++ [i]). intros H.
  destruct (cursor_at_snoc_inv _ _ _ _ H) as (c0'&ch&Hc0&Hch&E). injection E as <- -> ->. split; [exact Hc0|]. eauto.
Qed.
(** the answer [o] of the spec and the answer of the cursor function *)
Definition agree (o : option pos) (r : res (option cursor)) : Prop :=
  match o with Some q => exists d, r = Ok (Some d) /\ cursor_at root q = Some d | None => r = Ok None end.
Lemma agree_sel p r (o : option (nat * (N * green))) l : cursor_at root p <> None -> valid_sel l o ->
  (forall i ch, l !! i = Some ch -> cursor_at root (p ++ [i]) <> None) ->
  r = Ok ((fst <$> o) ≫= fun i => cursor_at root (p ++ [i])) -> agree ((fun i => p ++ [i]) <$> (fst <$> o)) r.
Proof.
  intros _ Hv Hl ->. destruct o as [[i ch]|]; simpl; [|done]. specialize (Hl _ _ (Hv _ _ eq_refl)).
  destruct (cursor_at root (p ++ [i])) as [d|] eqn:E; [|done]. eauto.
Qed.
Lemma nav_cursor n c : cin c -> (nav_on_node n = true -> c_is_node c = true) ->
  exists o, s_nav n (erase root) (c_path c) = SOk o /\ agree o (c_nav n c).
Proof using Hwf.
  intros Hc Hn. pose proof (cin_tsub _ Hc) as Ht.
  assert (Hdown : forall (sel : list (N * green) -> option (nat * (N * green))) f, c_is_node c = true ->
    (gis_node (c_green c) = true -> sel_ok (c_green c) (sel (gchildren (c_green c))) (f (tchildren (erase (c_green c))))) ->
    exists o, down (erase root) (c_path c) f = SOk o /\ agree o (mk_child_opt c (sel (gchildren (c_green c))))).
  { intros sel f Hnd Hok. unfold down. rewrite Ht. unfold c_is_node in Hnd. destruct (Hok Hnd) as [Hv Hf].
    rewrite <- erase_is_node in Hnd. destruct (erase (c_green c)) as [k cs|] eqn:Eg; [|done]. cbn [tchildren] in Hf. eexists. split; [done|]. rewrite <- Hf.
    eapply agree_sel; [by rewrite Hc|exact Hv| |].
    - intros i ch Hi. by rewrite (cursor_at_child _ _ _ i ch Hc).
    - by apply (mk_child_opt_at root Hwf). }
  assert (Hside : forall (sel : nat -> list (N * green) -> option (nat * (N * green))) f,
    (forall i, sel i [] = None) -> (forall g i, i < length (gchildren g) -> sel_ok g (sel i (gchildren g)) (f (tchildren (erase g)) i)) ->
    agree (sideways (erase root) (c_path c) f) (mk_sibling_opt c (sel (c_index c) (green_siblings c)))).
  { intros sel f Hnil Hok. destruct c as [g|c0 i off g].
    - unfold sideways. simpl. unfold green_siblings. simpl. by rewrite Hnil.
    - destruct (cin_child_inv _ _ _ _ Hc) as (Hc0&ch&Hch&->&->). change (c_path (CChild c0 i (c_offset c0 + ch.1) ch.2)) with (c_path c0 ++ [i]).
      unfold sideways. rewrite last_snoc, removelast_last, (cursor_at_tsub _ _ _ Hc0).
      change (c_index (CChild c0 i (c_offset c0 + ch.1) ch.2)) with i. change (green_siblings (CChild c0 i (c_offset c0 + ch.1) ch.2)) with (gchildren (c_green c0)).
      destruct (Hok (c_green c0) i) as [Hv Hf]; [by eapply lookup_lt_Some|]. rewrite <- Hf.
      eapply agree_sel; [by rewrite Hc0|exact Hv| |].
      + intros j ch' Hj. by rewrite (cursor_at_child _ _ _ j ch' Hc0).
      + by eapply (mk_sibling_opt_at root Hwf). }
  assert (Hfn : forall o r, c_is_node c = true -> agree o r -> exists o', for_node (erase root) (c_path c) o = SOk o' /\ agree o' r).
  { intros o r Hnd Hag. unfold for_node. rewrite Ht. unfold c_is_node in Hnd. rewrite <- erase_is_node in Hnd. destruct (erase (c_green c)); [|done]. eauto. }
  destruct n; cbn [s_nav c_nav nav_on_node] in *.
  - eexists. split; [done|]. destruct c as [g|c0 i off g]; [done|]. destruct (cin_child_inv _ _ _ _ Hc) as (Hc0&ch&Hch&->&->). change (c_path (CChild c0 i (c_offset c0 + ch.1) ch.2)) with (c_path c0 ++ [i]).
    destruct (c_path c0 ++ [i]) as [|x l] eqn:E; [by destruct (c_path c0)|]. rewrite <- E, removelast_last. exists c0. by split.
  - apply (Hdown (fun cs => find_map sel_node (enumerate cs)) _ (Hn eq_refl)). intros Hg. apply (sel_first_ok sel_node _ _ (c_green c) 0 sel_node_selects agrees_node).
  - apply (Hdown (fun cs => find_map sel_node (rev (enumerate cs))) _ (Hn eq_refl)). intros Hg. rewrite length_erase_children.
    pose proof (sel_last_ok sel_node _ _ (c_green c) (length (gchildren (c_green c))) sel_node_selects agrees_node ltac:(lia)) as Hok.
    by rewrite Nat.sub_diag in Hok.
  - apply (Hdown (fun cs => find_map (sel_node_kind m) (enumerate cs)) _ (Hn eq_refl)). intros Hg. apply (sel_first_ok _ _ _ (c_green c) 0 (sel_node_kind_selects m) (agrees_node_kind m)).
  - apply (Hdown (fun cs => pair 0 <$> head cs) _ (Hn eq_refl)). intros Hg. split.
    + intros i ch. destruct (gchildren (c_green c)) as [|a l]; simpl; [done|]. intros [= <- <-]. done.
    + rewrite <- (lookup_first (gchildren (c_green c))) by (by rewrite length_erase_children). rewrite lookup_enumerate. by destruct (gchildren (c_green c)).
  - apply (Hdown (fun cs => last (enumerate cs)) _ (Hn eq_refl)). intros Hg. rewrite length_erase_children, last_lookup, length_enumerate. split.
    + apply valid_lookup.
    + rewrite <- (lookup_last (gchildren (c_green c))) by (by rewrite ?length_erase_children).
      destruct (gchildren (c_green c)) as [|a l]; [done|]. done.
  - apply (Hdown (fun cs => find_map (sel_kind m) (enumerate cs)) _ (Hn eq_refl)). intros Hg. apply (sel_first_ok _ _ _ (c_green c) 0 (sel_kind_selects m) (agrees_kind m)).
  - apply Hfn; [by apply Hn|]. apply (Hside (fun i cs => find_map sel_node (drop (i + 1) (enumerate cs)))); [intros; apply find_enum_nil|].
    intros g i Hi. rewrite Nat.add_1_r. apply (sel_first_ok sel_node _ _ g (S i) sel_node_selects agrees_node).
  - apply Hfn; [by apply Hn|]. unfold prev_sibling. cbv zeta. rewrite rev_length, length_enumerate.
    pose proof (Hside (fun i cs => if length cs <? i then None else find_map sel_node (drop (length cs - i) (rev (enumerate cs)))) (fun cs i => last_at is_node cs i)) as H.
    cbv beta in H. destruct (length (green_siblings c) <? c_index c); [|apply H].
    + change (@Ok (option cursor) None) with (mk_sibling_opt c None). apply H.
      * by intros [|i].
      * intros g i Hi. destruct (Nat.ltb_spec (length (gchildren g)) i); [lia|]. apply (sel_last_ok sel_node _ _ g i sel_node_selects agrees_node). lia.
    + by intros [|i].
    + intros g i Hi. destruct (Nat.ltb_spec (length (gchildren g)) i); [lia|]. apply (sel_last_ok sel_node _ _ g i sel_node_selects agrees_node). lia.
  - apply Hfn; [by apply Hn|]. apply (Hside (fun i cs => find_map (sel_node_kind m) (drop (i + 1) (enumerate cs)))); [intros; apply find_enum_nil|].
    intros g i Hi. rewrite Nat.add_1_r. apply (sel_first_ok _ _ _ g (S i) (sel_node_kind_selects m) (agrees_node_kind m)).
  - eexists. split; [done|]. apply (Hside (fun i cs => enumerate cs !! (i + 1))); [intros; apply enum_nil_lookup|].
    intros g i Hi. rewrite Nat.add_1_r. split; [apply valid_lookup|]. apply lookup_first. by rewrite length_erase_children.
  - eexists. split; [done|]. unfold prev_sibling_or_token.
    pose proof (Hside (fun i cs => match i with 0 => None | S i' => enumerate cs !! i' end) (fun cs i => last_at any cs i)) as H. cbv beta in H.
    assert (Hr : match c_index c with 0 => Ok None | S index => mk_sibling_opt c (enumerate (green_siblings c) !! index) end
      = mk_sibling_opt c (match c_index c with 0 => None | S i' => enumerate (green_siblings c) !! i' end)) by (by destruct (c_index c)).
    rewrite Hr. apply H.
    + intros [|i]; [done|apply enum_nil_lookup].
    + intros g i Hi. split; [destruct i; [done|]; apply valid_lookup|]. apply lookup_last; [by rewrite length_erase_children|lia].
  - eexists. split; [done|]. apply (Hside (fun i cs => find_map (sel_kind m) (drop (i + 1) (enumerate cs)))); [intros; apply find_enum_nil|].
    intros g i Hi. rewrite Nat.add_1_r. apply (sel_first_ok _ _ _ g (S i) (sel_kind_selects m) (agrees_kind m)).
Qed.
End nav.

(** ** The handles a client holds *)
(** proof device, no counterpart in the code *)
Definition rs := list (nat * (nat * pos)).
(** proof device, no counterpart in the code *)
Definition held (st : sst) : rs := somes (imap (fun s o => pair s <$> o) (s_handles st)).
Lemma elem_of_held st s h : (s, h) ∈ held st <-> s_handles st !! s = Some (Some h).
Proof.
  unfold held. rewrite elem_slot, elem_of_lookup_imap. split.
  - intros (i&o&E&Hi). destruct o as [h'|]; simpl in E; [|done]. by injection E as <- <-.
  - intros H. exists s, (Some h). done.
Qed.
Lemma NoDup_held st : NoDup (held st).
Proof.
  unfold held. assert (H : forall (l : list (option (nat * pos))) k, NoDup (somes (imap (fun s o => pair (k + s) <$> o) l)) /\
    (forall s h, (s, h) ∈ somes (imap (fun s o => pair (k + s) <$> o) l) -> k <= s)).
  { induction l as [|o l IH]; intros k; simpl; [split; [constructor|by intros s h ?%elem_of_nil]|]. destruct (IH (S k)) as [IH1 IH2].
    assert (E : imap ((fun s o => pair (k + s) <$> o) ∘ S) l = imap (fun s (o : option (nat * pos)) => pair (S k + s) <$> o) l).
    { apply imap_ext. intros i x _. simpl. by rewrite Nat.add_succ_r. }
    rewrite E. destruct o as [h0|]; simpl.
    - split.
      + constructor; [|exact IH1]. intros Hin. apply IH2 in Hin. lia.
      + intros s h [[= -> ->]|Hin]%elem_of_cons; [lia|]. apply IH2 in Hin. lia.
    - split; [exact IH1|]. intros s h Hin. apply IH2 in Hin. lia. }
  apply (H (s_handles st) 0).
Qed.
Lemma held_ext st st' : (forall s h, s_handles st' !! s = Some (Some h) <-> s_handles st !! s = Some (Some h)) -> held st' ≡ₚ held st.
Proof. intros H. apply NoDup_Permutation; [apply NoDup_held..|]. intros [s h]. rewrite !elem_of_held. apply H. Qed.
Lemma lookup_snoc_slot {A} (l : list (option A)) o s a : (l ++ [o]) !! s = Some (Some a) <-> l !! s = Some (Some a) \/ (s = length l /\ o = Some a).
Proof.
  destruct (decide (s < length l)) as [Hlt|Hge].
  - rewrite lookup_app_l by done. split; [auto|]. intros [?|[? _]]; [done|lia].
  - rewrite lookup_app_r by lia. rewrite (lookup_ge_None_2 l) by lia. destruct (decide (s = length l)) as [->|Hne].
    + rewrite Nat.sub_diag. simpl. naive_solver.
    + rewrite (lookup_ge_None_2 [o]) by (simpl; lia). naive_solver.
Qed.
Lemma held_add st o : held (add_handle o st) ≡ₚ match o with Some h => (length (s_handles st), h) :: held st | None => held st end.
Proof.
  destruct o as [h|].
  - apply NoDup_Permutation; [apply NoDup_held|constructor; [|apply NoDup_held]|].
    + rewrite elem_of_held. intros H. apply lookup_lt_Some in H. lia.
    + intros [s h']. rewrite elem_of_cons, !elem_of_held. simpl. rewrite lookup_snoc_slot. naive_solver.
  - apply held_ext. intros s h. simpl. rewrite lookup_snoc_slot. naive_solver.
Qed.
Lemma held_del st s h : s_handles st !! s = Some (Some h) -> (s, h) :: held (del_handle s st) ≡ₚ held st.
Proof.
  intros Hs. assert (Hd : forall s' h', s_handles (del_handle s st) !! s' = Some (Some h') <-> s' <> s /\ s_handles st !! s' = Some (Some h')).
  { intros s' h'. simpl. destruct (decide (s' = s)) as [->|Hne]; [rewrite list_lookup_insert by (by eapply lookup_lt_Some); naive_solver|rewrite list_lookup_insert_ne by done; naive_solver]. }
  apply NoDup_Permutation; [constructor; [|apply NoDup_held]|apply NoDup_held|].
  - rewrite elem_of_held, Hd. naive_solver.
  - intros [s' h']. rewrite elem_of_cons, !elem_of_held, Hd. split; [naive_solver|]. intros H. destruct (decide (s' = s)) as [->|]; [left; congruence|by right].
Qed.

(** ** Solving permutations by counting *)
(** proof device, no counterpart in the code *)
Definition rone (x y : nat * (nat * pos)) : nat := if bool_decide (y = x) then 1 else 0.
(** proof device, no counterpart in the code *)
Fixpoint rcnt (x : nat * (nat * pos)) (l : rs) : nat := match l with [] => 0 | y :: l => rone x y + rcnt x l end.
Lemma rcnt_cons x y l : rcnt x (y :: l) = rone x y + rcnt x l.
Proof. done. Qed.
Lemma rcnt_nil x : rcnt x [] = 0.
Proof. done. Qed.
Lemma rcnt_app x l k : rcnt x (l ++ k) = rcnt x l + rcnt x k.
Proof. induction l as [|y l IH]; simpl; [done|]. rewrite IH. lia. Qed.
Lemma rcnt_of x l k : l ≡ₚ k -> rcnt x l = rcnt x k.
Proof. induction 1; simpl; lia. Qed.
Lemma rcnt_pos x l : 0 < rcnt x l <-> x ∈ l.
Proof.
  induction l as [|y l IH]; [rewrite rcnt_nil, elem_of_nil; lia|]. rewrite rcnt_cons, elem_of_cons, <- IH. unfold rone. case_bool_decide; [|naive_solver lia].
  split; [auto|]. lia.
Qed.
Lemma rcnt_perm l k : (forall x, rcnt x l = rcnt x k) -> l ≡ₚ k.
Proof.
  revert k. induction l as [|y l IH]; intros k H.
  - destruct k as [|z k]; [done|]. specialize (H z). rewrite rcnt_cons, rcnt_nil in H. unfold rone in H. rewrite bool_decide_eq_true_2 in H by done. lia.
  - assert (Hy : y ∈ k). { apply rcnt_pos. rewrite <- H, rcnt_cons. unfold rone. rewrite bool_decide_eq_true_2 by done. lia. }
    apply elem_of_list_split in Hy as (k1&k2&->). rewrite <- Permutation_middle. constructor. apply IH. intros x. specialize (H x).
    rewrite rcnt_app, !rcnt_cons in H. rewrite rcnt_app. lia.
Qed.
Ltac psolve :=
  let x := fresh "x" in
  apply rcnt_perm; intros x;
  repeat match goal with H : _ ≡ₚ _ |- _ => apply (rcnt_of x) in H end;
  repeat match goal with
  | H : context[rcnt x (_ ++ _)] |- _ => rewrite rcnt_app in H
  | H : context[rcnt x (_ :: _)] |- _ => rewrite rcnt_cons in H
  | H : context[rcnt x []] |- _ => rewrite rcnt_nil in H
  | |- context[rcnt x (_ ++ _)] => rewrite rcnt_app
  | |- context[rcnt x (_ :: _)] => rewrite rcnt_cons
  | |- context[rcnt x []] => rewrite rcnt_nil
  end; try lia.

(** ** The calls as programs *)
(** one of cursor.rs:666-668, 685-759, 796-824, 1052-1074, 1151-1258 *)
Definition p_nav (n : nav) (s : nat) : script (option nat) := POp (ONav n s) (fun x => PRet (an_slot x)).
(** cursor.rs:763-794, 1203-1241 *)
Definition p_to_next (tok : bool) (s : nat) : script (option nat) := POp (OToNext tok s) (fun x => PRet (an_slot x)).
(** cursor.rs:935-940 *)
Definition p_at_range (a b : N) (s : nat) : script (option nat) := POp (OAtRange a b s) (fun x => PRet (an_slot x)).
(** helper: the handle the call returned *)
Definition p_slot (x : ans) : script nat := match an_slot x with Some s => PRet s | None => PPanic end.
(** cursor.rs:150-156, 172-178 *)
Definition p_clone (s : nat) : script nat := POp (OClone s) p_slot.
(** cursor.rs:158-165, 180-187 *)
Definition p_drop (s : nat) : script unit := POp (ODrop s) (fun _ => PRet ()).
(** reads through a handle: cursor.rs:341-374, 576-578, 1032-1044 *)
Definition p_look (s : nat) : script look := POp (OLook s) (fun x => match an_obs x with Some l => PRet l | None => PPanic end).
(** cursor.rs:1279-1330 [PartialEq] *)
Definition p_eq (a b : nat) : script bool := PEq a b PRet.

Section tracks.
Context (T : list (bool * tree)) (G : list (option tree)) (K : list nat).
Context (n : nat) (m : bool) (root : green) (HT : T !! n = Some (m, erase root)) (Hwf : wfg root) (Hco : coherent root).
(** nothing but the handles has changed, and these are held now *)
(** proof device, no counterpart in the code *)
Definition still (st : sst) : Prop := s_trees st = T /\ s_greens st = G /\ s_leaked st = K.
(** proof device, no counterpart in the code *)
Definition has (L : rs) (st : sst) : Prop := still st /\ held st ≡ₚ L.
(** the program, owning the handles [F], does what [r] says, changes nothing but the
    handles and leaves all others alone *)
(** proof device, no counterpart in the code *)
Definition tracks {A B} (F : rs) (p : script A) (r : res B) (R : B -> A -> rs -> Prop) : Prop :=
  r <> Err UB -> r <> Err Diverge ->
  forall L st, has (F ++ L) st ->
    swp p (fun e st' => e = Panic /\ r = Err Panic /\ still st') (fun a st' => exists b F', r = Ok b /\ R b a F' /\ has (F' ++ L) st') st.

Lemma has_perm L L' st : L ≡ₚ L' -> has L st -> has L' st.
Proof. intros HL [H1 H2]. split; [done|]. by rewrite H2. Qed.
Lemma has_slot L st s h : has L st -> (s, h) ∈ L -> s_handles st !! s = Some (Some h).
Proof. intros [_ H] Hin. apply elem_of_held. by rewrite H. Qed.
Lemma tracks_perm {A B} F F' (p : script A) (r : res B) R : F ≡ₚ F' -> tracks F p r R -> tracks F' p r R.
Proof. intros HF H H1 H2 L st Hh. apply H; [done|done|]. eapply has_perm; [|exact Hh]. by rewrite HF. Qed.
Lemma tracks_mono {A B} F (p : script A) (r : res B) (R R' : B -> A -> rs -> Prop) :
  tracks F p r R -> (forall b a F', R b a F' -> R' b a F') -> tracks F p r R'.
Proof.
  intros H HR H1 H2 L st Hh. eapply swp_mono; [by apply H|auto|]. intros a st' (b&F'&E&Hr&Hh'). exists b, F'. auto.
Qed.
Lemma tr_call {A B C D} F F1 F2 (p : script A) (r : res B) (k : A -> script C) (f : B -> res D) R S :
  tracks F1 p r R -> F ≡ₚ F1 ++ F2 -> (forall a b F', R b a F' -> tracks (F' ++ F2) (k a) (f b) S) -> tracks F (p ≫= k) (r ≫= f) S.
Proof.
  intros Hp HF Hk H1 H2 L st Hh. apply swp_bind. destruct r as [b|e].
  - eapply swp_mono; [apply (Hp ltac:(done) ltac:(done) (F2 ++ L))| |].
    + eapply has_perm; [|exact Hh]. by rewrite HF, app_assoc.
    + by intros e st' (_&?&_).
    + intros a st' (b'&F'&E&Hr&Hh'). injection E as <-. apply (Hk a b F' Hr); [done|done|]. eapply has_perm; [|exact Hh']. by rewrite app_assoc.
  - eapply swp_mono; [apply (Hp) with (L := F2 ++ L)| |].
    + intros [= ->]. by apply H1.
    + intros [= ->]. by apply H2.
    + eapply has_perm; [|exact Hh]. by rewrite HF, app_assoc.
    + intros e' st' (->&E&?). by injection E as ->.
    + intros a st' (b'&F'&E&_). done.
Qed.
Lemma tr_ret {A B} F F' (a : A) (b : B) (R : B -> A -> rs -> Prop) : F ≡ₚ F' -> R b a F' -> tracks F (PRet a) (Ok b) R.
Proof. intros HF HR _ _ L st Hh. exists b, F'. split_and!; [done|done|]. eapply has_perm; [|exact Hh]. by rewrite HF. Qed.
Lemma tr_panic {A B} F (R : B -> A -> rs -> Prop) : tracks F PPanic (Err Panic) R.
Proof. intros _ _ L st Hh. split_and!; [done..|exact (proj1 Hh)]. Qed.
Lemma tr_err {A B} F (p : script A) e (R : B -> A -> rs -> Prop) : e <> Panic -> tracks F p (Err e) R.
Proof. intros He H1 H2. destruct e; congruence. Qed.

(** a cursor and the slot that holds its handle *)
(** proof device, no counterpart in the code *)
Definition Rc (c : cursor) (s : nat) (F : rs) : Prop := cin root c /\ F = [(s, (n, c_path c))].
(** proof device, no counterpart in the code *)
Definition Ropt {A B} (R : A -> B -> rs -> Prop) (o : option A) (a : option B) (F : rs) : Prop :=
  match o, a with Some c, Some s => R c s F | None, None => F = [] | _, _ => False end.
(** proof device, no counterpart in the code *)
Definition look_of (c : cursor) : look := look_at m (erase root) (c_path c) (erase (c_green c)).

Lemma has_add L st h : has L st -> has ((length (s_handles st), h) :: L) (add_handle (Some h) st).
Proof. intros [H1 H2]. split; [done|]. by rewrite held_add, H2. Qed.
Lemma has_none L st : has L st -> has L (add_handle None st).
Proof. intros [H1 H2]. split; [done|]. by rewrite held_add. Qed.
Lemma has_del L st s h : has ((s, h) :: L) st -> has L (del_handle s st).
Proof.
  intros Hh. pose proof (has_slot _ _ s h Hh ltac:(left)) as Hs. destruct Hh as [H1 H2]. split; [done|].
  apply (Permutation_cons_inv (a := (s, h))). by rewrite held_del.
Qed.
Lemma filled_add st (o : option (nat * pos)) : filled (s_handles st) (s_handles (add_handle o st)) = (fun _ => length (s_handles st)) <$> o.
Proof. unfold filled. simpl. rewrite lookup_app_r, Nat.sub_diag by done. by destruct o. Qed.

Lemma tr_look {A B} F s c (k : look -> script A) (r : res B) S : cin root c -> (s, (n, c_path c)) ∈ F ->
  tracks F (k (look_of c)) r S -> tracks F (p_look s ≫= k) r S.
Proof using HT.
  intros Hc Hin Hk H1 H2 L st Hh. pose proof (has_slot _ _ s _ Hh (proj2 (elem_of_app _ _ _) (or_introl Hin))) as Hs.
  apply swp_bind. unfold p_look. cbn [swp s_step]. rewrite Hs. cbn [of_slot mbind sres_bind].
  destruct Hh as [(E1&E2&E3) Hl]. rewrite (s_look_at st n (c_path c) m (erase root) (erase (c_green c))); [|by rewrite E1|by apply cin_tsub].
  cbn [swp s_ans an_obs]. apply Hk; try done.
Qed.
Lemma tr_nav {A B} F nv s c (k : option nat -> script A) (f : option cursor -> res B) S : cin root c -> (s, (n, c_path c)) ∈ F ->
  (nav_on_node nv = true -> c_is_node c = true) ->
  (forall o a Fo, Ropt Rc o a Fo -> c_nav nv c = Ok o -> tracks (Fo ++ F) (k a) (f o) S) ->
  tracks F (p_nav nv s ≫= k) (c_nav nv c ≫= f) S.
Proof using HT Hwf.
  intros Hc Hin Hn Hk H1 H2 L st Hh. pose proof (has_slot _ _ s _ Hh (proj2 (elem_of_app _ _ _) (or_introl Hin))) as Hs.
  destruct (nav_cursor root Hwf nv c Hc Hn) as (o&Ho&Hag).
  apply swp_bind. unfold p_nav. cbn [swp s_step]. rewrite Hs. cbn [of_slot mbind sres_bind]. cbn [fst snd].
  pose proof Hh as [(E1&E2&E3) Hl]. rewrite E1, HT, Ho. cbn [mbind sres_bind swp s_ans an_slot]. rewrite filled_add.
  destruct o as [q|]; simpl in Hag.
  - destruct Hag as (d&E&Hd). rewrite E in *. destruct (cin_at _ _ _ Hd) as [Hcd Hp]. cbn [mbind res_bind] in *.
    apply (Hk (Some d) (Some (length (s_handles st))) [(length (s_handles st), (n, c_path d))]); [done|done|done|done|].
    cbn [app]. rewrite Hp. by apply has_add.
  - rewrite Hag in *. cbn [mbind res_bind] in *. apply (Hk None None []); [done|done|done|done|]. by apply has_none.
Qed.
Lemma tr_to_next {A B} F F0 tok s c (k : option nat -> script A) (f : option cursor -> res B) S : cin root c -> F ≡ₚ (s, (n, c_path c)) :: F0 ->
  (tok = false -> c_is_node c = true) -> c_path c <> [] ->
  (forall o a Fo, Ropt Rc o a Fo -> c_nav (if tok then NNextSiblingOrToken else NNextSibling) c = Ok o -> tracks (Fo ++ F0) (k a) (f o) S) ->
  tracks F (p_to_next tok s ≫= k) (c_nav (if tok then NNextSiblingOrToken else NNextSibling) c ≫= f) S.
Proof using HT Hwf.
  intros Hc HF Hn Hne Hk. apply (tracks_perm ((s, (n, c_path c)) :: F0)); [by symmetry|]. intros H1 H2 L st Hh.
  pose proof (has_slot _ _ s _ Hh (proj2 (elem_of_app _ _ _) (or_introl (elem_of_list_here _ _)))) as Hs.
  destruct (nav_cursor root Hwf (if tok then NNextSiblingOrToken else NNextSibling) c Hc) as (o&Ho&Hag); [destruct tok; [done|auto]|].
  apply swp_bind. unfold p_to_next. cbn [swp s_step]. rewrite Hs. cbn [of_slot mbind sres_bind]. cbn [fst snd].
  pose proof Hh as [(E1&E2&E3) Hl]. rewrite E1, HT, Ho. cbn [mbind sres_bind].
  rewrite (bool_decide_eq_false_2 _ Hne), andb_false_r, andb_false_l. cbv zeta iota. cbn [swp s_ans an_slot].
  assert (Hf : forall o : option (nat * pos), filled (s_handles st) (s_handles (add_handle o (del_handle s st))) = (fun _ => length (s_handles st)) <$> o).
  { intros o'. transitivity (filled (s_handles (del_handle s st)) (s_handles (add_handle o' (del_handle s st)))); [unfold filled; simpl; by rewrite insert_length|].
    rewrite filled_add. simpl. by rewrite insert_length. }
  rewrite Hf. apply has_del in Hh. destruct o as [q|]; simpl in Hag.
  - destruct Hag as (d&E&Hd). rewrite E in *. destruct (cin_at _ _ _ Hd) as [Hcd Hp]. cbn [mbind res_bind] in *.
    apply (Hk (Some d) (Some (length (s_handles st))) [(length (s_handles st), (n, c_path d))]); [done|done|done|done|].
    cbn [app]. rewrite Hp. pose proof (has_add _ _ (n, q) Hh) as Ha. replace (length (s_handles (del_handle s st))) with (length (s_handles st)) in Ha; [exact Ha|].
    simpl. by rewrite insert_length.
  - rewrite Hag in *. cbn [mbind res_bind] in *. apply (Hk None None []); [done|done|done|done|]. by apply has_none.
Qed.
Lemma tr_clone {A B} F s h (k : nat -> script A) (r : res B) S : (s, h) ∈ F ->
  (forall s', tracks ((s', h) :: F) (k s') r S) -> tracks F (p_clone s ≫= k) r S.
Proof.
  intros Hin Hk H1 H2 L st Hh. pose proof (has_slot _ _ s _ Hh (proj2 (elem_of_app _ _ _) (or_introl Hin))) as Hs.
  apply swp_bind. unfold p_clone. cbn [swp s_step]. rewrite Hs. cbn [of_slot mbind sres_bind]. unfold p_slot. cbn [s_ans an_slot]. rewrite filled_add. cbn [fmap option_fmap option_map swp].
  apply Hk; [done|done|]. cbn [app]. by apply has_add.
Qed.
Lemma tr_drop {A B} F F0 s h (k : unit -> script A) (r : res B) S : F ≡ₚ (s, h) :: F0 ->
  tracks F0 (k ()) r S -> tracks F (p_drop s ≫= k) r S.
Proof.
  intros HF Hk. apply (tracks_perm ((s, h) :: F0)); [by symmetry|]. intros H1 H2 L st Hh.
  pose proof (has_slot _ _ s _ Hh (proj2 (elem_of_app _ _ _) (or_introl (elem_of_list_here _ _)))) as Hs.
  apply swp_bind. unfold p_drop. cbn [swp s_step]. rewrite Hs. cbn [of_slot mbind sres_bind swp]. apply Hk; [done|done|]. by eapply has_del.
Qed.
(** [==] between an element and one of its ancestors (or itself) *)
Lemma eq_below c d q r : cin root c -> cin root d -> c_path c = c_path d ++ q ->
  eq_allowed (n, c_path c) (n, c_path d) (look_of c) (look_of d) r -> r = c_eqb c d.
Proof using Hco.
  intros Hc Hd Eq [H1 H2]. destruct q as [|i q].
  - rewrite app_nil_r in Eq. rewrite H1 by (by rewrite Eq). unfold cin in *. rewrite Eq in Hc. assert (c = d) as -> by congruence.
    unfold c_eqb. by rewrite Nat.eqb_refl, N.eqb_refl.
  - pose proof (cursor_at_gsub _ _ _ Hc) as Gc. pose proof (cursor_at_gsub _ _ _ Hd) as Gd. pose proof Gc as Gc'. rewrite Eq, gsub_app, Gd in Gc'. simpl in Gc'.
    assert (Hlt : gsize (c_green c) < gsize (c_green d)) by (eapply (gsub_gsize (c_green d) (i :: q)); [exact Gc'|done]).
    assert (r = false) as ->.
    { destruct r; [|done]. destruct (H2 eq_refl) as [E _]. simpl in E. apply (f_equal tsize) in E. rewrite <- !gsize_erase in E. lia. }
    symmetry. unfold c_eqb. destruct (Nat.eqb_spec (gaddr (c_green c)) (gaddr (c_green d))) as [Ea|]; [|done].
    rewrite (Hco _ _ _ _ Gc Gd Ea) in Hlt. lia.
Qed.
Lemma tr_eq {A B} F sa sb c d q (k : bool -> script A) (r : res B) S : cin root c -> cin root d -> c_path c = c_path d ++ q ->
  (sa, (n, c_path c)) ∈ F -> (sb, (n, c_path d)) ∈ F -> tracks F (k (c_eqb c d)) r S -> tracks F (p_eq sa sb ≫= k) r S.
Proof using HT Hco.
  intros Hc Hd Eq Ha Hb Hk H1 H2 L st Hh. pose proof (has_slot _ _ sa _ Hh (proj2 (elem_of_app _ _ _) (or_introl Ha))) as Hsa.
  pose proof (has_slot _ _ sb _ Hh (proj2 (elem_of_app _ _ _) (or_introl Hb))) as Hsb.
  apply swp_bind. unfold p_eq. cbn [swp]. exists (n, c_path c), (n, c_path d), (look_of c), (look_of d). destruct Hh as [(E1&E2&E3) Hl].
  split_and!; [done|done|..].
  - apply s_look_at; [by rewrite E1|by apply cin_tsub].
  - apply s_look_at; [by rewrite E1|by apply cin_tsub].
  - intros b Hb'. rewrite (eq_below _ _ _ _ Hc Hd Eq Hb'). by apply Hk.
Qed.
(** [child_or_token_at_range] *)
Lemma at_range_cursor c a b : cin root c -> c_is_node c = true -> (a <= b)%N ->
  if (c_offset c <=? a)%N
  then agree root ((fun i => c_path c ++ [i]) <$> at_range (tchildren (erase (c_green c))) (a - c_offset c) (b - c_offset c)) (child_or_token_at_range c (TR a b))
  else child_or_token_at_range c (TR a b) = Err Panic.
Proof using Hwf.
  intros Hc Hn Hab. unfold child_or_token_at_range, range_sub. cbn [rstart rend]. destruct (N.leb_spec (c_offset c) a) as [Hle|Hlt]; [|done].
  rewrite ?(proj2 (N.leb_le (c_offset c) b)) by lia. cbn [andb mbind res_bind].
  pose proof (cursor_at_wfg root Hwf _ _ Hc) as Hwg. assert (Hok : range_ok (TR (a - c_offset c) (b - c_offset c))) by (unfold range_ok; simpl; lia).
  pose proof (at_range_spec _ _ Hwg Hn Hok) as Hat. cbn [rstart rend] in Hat. rewrite <- Hat.
  pose proof (child_at_range_spec _ _ Hwg Hok) as Hsp. destruct (child_at_range (c_green c) _) as [[[i ro] g]|]; [|done].
  cbn [fmap option_fmap option_map fst agree]. destruct Hsp as [Hch _]. rewrite (mk_child_at root Hwf _ _ _ _ Hc Hch). cbn [fmap res_fmap].
  eexists. split; [done|]. by rewrite (cursor_at_child _ _ _ _ _ Hc Hch).
Qed.
Lemma tr_at_range {A B} F s c a b (k : option nat -> script A) (f : option cursor -> res B) S : cin root c -> (s, (n, c_path c)) ∈ F ->
  c_is_node c = true -> (a <= b)%N ->
  (forall o x Fo, Ropt Rc o x Fo -> child_or_token_at_range c (TR a b) = Ok o -> tracks (Fo ++ F) (k x) (f o) S) ->
  tracks F (p_at_range a b s ≫= k) (child_or_token_at_range c (TR a b) ≫= f) S.
Proof using HT Hwf.
  intros Hc Hin Hn Hab Hk H1 H2 L st Hh. pose proof (has_slot _ _ s _ Hh (proj2 (elem_of_app _ _ _) (or_introl Hin))) as Hs.
  pose proof (at_range_cursor c a b Hc Hn Hab) as Hag. pose proof Hh as [(E1&E2&E3) Hl].
  apply swp_bind. unfold p_at_range. cbn [swp s_step]. rewrite Hs. cbn [of_slot mbind sres_bind]. unfold s_elem. cbn [fst snd].
  rewrite E1, HT, (cin_tsub _ _ Hc). cbn [mbind sres_bind]. rewrite erase_is_node. unfold c_is_node in Hn. rewrite Hn. rewrite (proj2 (N.leb_le _ _) Hab).
  change (ill_unless (true && true)) with (SOk ()). cbn [mbind sres_bind].
  unfold s_range. cbn [fst snd]. rewrite E1, HT, (crange_trange _ Hwf _ _ Hc). unfold crange. cbn [mbind sres_bind].
  destruct (c_offset c <=? a)%N; cbn [panic_unless mbind sres_bind].
  - cbn [swp s_ans an_slot]. rewrite filled_add.
    destruct (at_range (tchildren (erase (c_green c))) (a - c_offset c) (b - c_offset c)) as [i|]; simpl in Hag.
    + destruct Hag as (d&E&Hd). rewrite E in *. destruct (cin_at _ _ _ Hd) as [Hcd Hp]. cbn [mbind res_bind] in *.
      apply (Hk (Some d) (Some (length (s_handles st))) [(length (s_handles st), (n, c_path d))]); [done|done|done|done|].
      cbn [app]. rewrite Hp. by apply has_add.
    + rewrite Hag in *. cbn [mbind res_bind] in *. apply (Hk None None []); [done|done|done|done|]. by apply has_none.
  - rewrite Hag. by split_and!.
Qed.
End tracks.
