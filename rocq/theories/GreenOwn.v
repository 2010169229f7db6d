(** * The list of owned green elements of Heap.v against the memory of GreenStore.v (proofs only). *)
From Verif Require Export Heap GreenStoreFacts.

(** the memory contains what the heap says is owned, and possibly leaked nodes *)
Definition backs (st : gst) (h : heap) : Prop := exists lk, gok (gmm st) (ow h ++ lk).

Lemma gaddr_in_gaddrs g : gaddr g ∈ gaddrs g.
Proof. destruct g; left. Qed.
Lemma gaddrs_kid g x a : x ∈ kids g -> a ∈ gaddrs x -> a ∈ gaddrs g.
Proof.
  destruct g as [b k tl cs|]; unfold kids; simpl; [|by intros ?%elem_of_nil].
  intros (c&->&Hc)%elem_of_map Ha. right. apply elem_of_list_In, in_concat. exists (gaddrs c.2).
  split; [|by apply elem_of_list_In]. apply in_map_iff. exists c. split; [done|]. by apply elem_of_list_In.
Qed.
Lemma reaches_gaddrs m a b g : reaches m a b -> stored m g -> gaddr g = a -> b ∈ gaddrs g.
Proof.
  intros Hr. revert g. induction Hr as [a|a n c x b Ha Hx Hr IH]; intros g Hg <-; [apply gaddr_in_gaddrs|].
  pose proof Hg as [[n' Hn] K]%stored_inv. rewrite Hn in Ha. injection Ha as _ <-.
  rewrite cslots_of in Hx. apply elem_of_map in Hx as (z&->&Hz). rewrite Forall_forall in K.
  eapply gaddrs_kid; [done|]. by apply IH; [apply K|].
Qed.
Lemma live_addrs_elem l a : a ∈ live_addrs l <-> exists g, g ∈ l /\ a ∈ gaddrs g.
Proof.
  unfold live_addrs. rewrite elem_of_list_In, in_concat. split.
  - intros (x&Hx&Ha). apply in_map_iff in Hx as (g&<-&Hg). exists g. by rewrite !elem_of_list_In.
  - intros (g&Hg&Ha). exists (gaddrs g). rewrite in_map_iff, <-elem_of_list_In. split; [|done].
    exists g. by rewrite <-elem_of_list_In.
Qed.
Lemma gok_dom m L a : gok m L -> a ∈ dom m <-> a ∈ live_addrs L.
Proof.
  intros Hok. rewrite live_addrs_elem. split.
  - intros Ha. destruct (gok_reach _ _ _ Hok Ha) as (g&Hg&Hr). exists g. split; [done|].
    eapply reaches_gaddrs; [done| |done]. by eapply gok_stored.
  - intros (g&Hg&Ha). eapply stored_gaddrs; [|done]. by eapply gok_stored.
Qed.

Lemma remove_addr_perm m L g :
  Forall (stored m) L -> stored m g -> g ∈ L -> exists L', remove_addr (gaddr g) L = Some L' /\ L ≡ₚ g :: L'.
Proof.
  intros HF Hg. induction HF as [|x L Hx HF IH]; [by intros ?%elem_of_nil|]. simpl. intros Hin.
  destruct (Nat.eqb_spec (gaddr x) (gaddr g)) as [E|E].
  - assert (x = g) as -> by by eapply stored_det. by exists L.
  - apply elem_of_cons in Hin as [->|Hin]; [done|]. destruct (IH Hin) as (L'&->&Hp). exists (x :: L').
    split; [done|]. rewrite Hp. constructor.
Qed.

Lemma backs_live st h a : backs st h -> a ∈ live_addrs (ow h) -> a ∈ dom (gmm st).
Proof.
  intros [lk Hok] Ha. rewrite (gok_dom _ _ _ Hok). rewrite live_addrs_elem in *. destruct Ha as (g&?&?).
  exists g. rewrite elem_of_app. auto.
Qed.
Lemma backs_own st h x p g :
  backs st h -> x ∈ ow h -> gsub x p = Some g ->
  exists h' st', h_green_own g h = (Ok (), h') /\ gs_clone (gaddr g) st = (Ok (), st') /\ backs st' h'.
Proof.
  intros [lk Hok] Hx Hp. assert (Hg : stored (gmm st) g).
  { eapply stored_gsub; [|done]. eapply gok_stored; [done|]. apply elem_of_app. by left. }
  destruct (gs_clone_gok st _ g Hok Hg) as (st'&E&Hok'&_). unfold h_green_own, g_live.
  rewrite bool_decide_eq_true_2.
  - eexists _, st'. split; [done|]. split; [done|]. by exists lk.
  - rewrite live_addrs_elem. exists x. split; [done|]. clear -Hp. revert x Hp. induction p as [|i p IH]; intros x; simpl.
    + intros [= ->]. apply gaddr_in_gaddrs.
    + destruct (gchildren x !! i) as [c|] eqn:E; [|done]. intros H. eapply gaddrs_kid; [|by apply IH].
      unfold kids. apply elem_of_map. exists c. split; [done|]. by eapply elem_of_list_lookup_2.
Qed.
Lemma backs_drop st h g :
  backs st h -> g ∈ ow h ->
  exists h' st', h_green_drop g h = (Ok (), h') /\ gs_drop (gaddr g) st = (Ok (), st') /\ backs st' h'.
Proof.
  intros [lk Hok] Hg. pose proof (gi_handles _ _ (proj1 Hok)) as HF. apply Forall_app in HF as [HF _].
  pose proof HF as HF'. rewrite Forall_forall in HF'.
  destruct (remove_addr_perm (gmm st) (ow h) g HF (HF' g Hg) Hg) as (L'&E&Hp).
  unfold h_green_drop. rewrite E.
  destruct (gs_drop_ok g st (L' ++ lk)) as (st'&E'&Hok'&_).
  { eapply gok_perm; [|done]. by rewrite Hp. }
  eexists _, st'. split; [done|]. split; [done|]. by exists lk.
Qed.


(** a constructor call on both sides *)
Lemma green_new_only_panics pr a k els e : green_new pr a k els = Err e -> e = Panic.
Proof.
  unfold green_new. pose proof (accepted_assign pr 0 els) as H. destruct (accepted pr 0 els) as [w [t|rest]].
  - by rewrite H.
  - destruct H as [-> _]. simpl. congruence.
Qed.
(** proof device, no counterpart in the code *)
Definition same_build (h : heap) (f : addr -> res green) (used : option green) (r : res addr) (st' : gst) : Prop :=
  exists a, a ∉ live_addrs (ow h) /\ forall env, galloc env (ck h) (live_addrs (ow h)) = a ->
    exists r' h', h_green_build env f used h = (r', h') /\ (gaddr <$> r') = r /\ backs st' h'.
Lemma backs_built h f used k els own L' lk r st' :
  match used with Some u => remove_addr (gaddr u) (ow h) | None => Some (ow h) end = Some L' ->
  (forall x, x ∈ ow h -> x ∈ own ++ L') -> (forall a, f a = green_new Checked a k els) ->
  built_or_leaked Checked k els own (L' ++ lk) r (gmm st') ->
  same_build h f used r st'.
Proof.
  intros Hu Hsub Hf (a&Ha&Hr). exists a. split.
  { rewrite live_addrs_elem. intros (x&Hx&Hin). eapply Ha; [|done]. apply Hsub in Hx. rewrite !elem_of_app in *. tauto. }
  intros env Hal. unfold h_green_build. rewrite Hu, Hal, Hf.
  destruct (green_new Checked a k els) as [g|e] eqn:Eg.
  - destruct Hr as [-> Hok]. eexists _, _. split; [done|]. split.
    + unfold green_new in Eg. apply res_bind_ok in Eg as ([cs t]&_&Eg). injection Eg as <-. done.
    + by exists lk.
  - destruct Hr as [-> Hok]. rewrite (green_new_only_panics _ _ _ _ _ Eg). eexists _, _. split; [done|]. split; [done|].
    eexists. eapply gok_perm; [|done]. by rewrite Permutation_middle.
Qed.

Lemma fresh_for (h : heap) : exists a, a ∉ live_addrs (ow h).
Proof. exists (S (list_max (live_addrs (ow h)))). intros Ha%elem_of_list_In. 
  pose proof (proj1 (list_max_le (live_addrs (ow h)) _) (le_n _)) as H. rewrite List.Forall_forall in H. apply H in Ha. lia. Qed.

Section build.
Context (al : nat -> gset addr -> addr) (Hal : galloc_ok al).
Context (st : gst) (h : heap) (Hb : backs st h) (x : green) (Hx : x ∈ ow h) (p : pos) (g : green) (Hp : gsub x p = Some g).

Lemma backs_stored : stored (gmm st) g.
Proof using Hb Hx Hp.
  destruct Hb as [lk Hok]. eapply stored_gsub; [|done]. eapply gok_stored; [done|]. apply elem_of_app. by left.
Qed.
Lemma backs_splice lo hi els used :
  match used with Some u => els = [u] /\ u ∈ ow h | None => els = [] end ->
  exists r st', gs_splice al Checked (gaddr g) lo hi (map gaddr els) st = (r, st') /\
    same_build h (fun a => green_splice_children Checked a g lo hi els) used r st'.
Proof using Hal Hb Hx Hp.
  intros Hu. pose proof backs_stored as Hg. destruct Hb as [lk Hok].
  assert (exists L', match used with Some u => remove_addr (gaddr u) (ow h) | None => Some (ow h) end = Some L' /\ ow h ≡ₚ els ++ L')
    as (L'&HL&Hperm).
  { destruct used as [u|]; [destruct Hu as [-> Hin]|subst; eauto].
    pose proof (gi_handles _ _ (proj1 Hok)) as HF. apply Forall_app in HF as [HF _]. pose proof HF as HF'.
    rewrite Forall_forall in HF'. by apply (remove_addr_perm (gmm st)); [|apply HF'|]. }
  destruct (gs_splice_ok al Checked g lo hi els st (L' ++ lk) Hal) as (r&st'&E&Hr); [|done|].
  { eapply gok_perm; [|done]. by rewrite Hperm, app_assoc. }
  exists r, st'. split; [done|]. unfold green_splice_children. fold (kids g).
  destruct (vec_splice (kids g) lo hi els) as [children|e] eqn:Ev.
  - eapply backs_built; [done| |done|exact Hr]. intros y. by rewrite Hperm.
  - destruct Hr as [-> Hok']. destruct (fresh_for h) as [a Ha]. exists a. split; [done|].
    intros env Ea. unfold h_green_build. rewrite HL, Ea. simpl.
    assert (e = Panic) as ->. { unfold vec_splice in Ev. destruct (_ && _); [done|]. by injection Ev as <-. }
    eexists _, _. split; [done|]. split; [done|]. by exists lk.
Qed.
Lemma backs_replace i u : u ∈ ow h ->
  exists r st', gs_replace al Checked (gaddr g) i (gaddr u) st = (r, st') /\
    same_build h (fun a => green_replace_child Checked a g i u) (Some u) r st'.
Proof using Hal Hb Hx Hp.
  intros Hin. pose proof backs_stored as Hg. destruct Hb as [lk Hok].
  pose proof (gi_handles _ _ (proj1 Hok)) as HF. apply Forall_app in HF as [HF _]. pose proof HF as HF'.
  rewrite Forall_forall in HF'. destruct (remove_addr_perm (gmm st) (ow h) u HF (HF' u Hin) Hin) as (L'&HL&Hperm).
  destruct (gs_replace_ok al Checked g i u st (L' ++ lk) Hal) as (r&st'&E&Hr); [|done|].
  { eapply gok_perm; [|done]. by rewrite Hperm. }
  exists r, st'. split; [done|].
  eapply backs_built; [exact HL| | |exact Hr].
  - intros y. by rewrite Hperm.
  - intros a. unfold green_replace_child. f_equal. fold (kids g). unfold enumerate.
    rewrite <-(repl_snd i u (kids g)). unfold repl_items.
    generalize (kids g). clear. intros l.
    enough (forall n, map (λ '(i0, child), if i0 =? i then u else child) (imap (λ j y, (n + j, y)) l) =
      map snd (imap (λ j y, if n + j =? i then (true, u) else (false, y)) l)) as H by apply (H 0).
    induction l as [|y l IH]; intros n; [done|]. simpl. f_equal; [by destruct (n + 0 =? i)|].
    rewrite (imap_ext _ (λ j y, (S n + j, y)) l) by (intros; simpl; f_equal; lia).
    rewrite (imap_ext ((λ j y, if n + j =? i then (true, u) else (false, y)) ∘ S) (λ j y, if S n + j =? i then (true, u) else (false, y)) l); [apply IH|].
    intros. simpl. by rewrite Nat.add_succ_r.
Qed.
End build.
