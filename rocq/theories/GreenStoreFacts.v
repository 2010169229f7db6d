(** * Facts about the memory of green trees (proofs only). *)
From Verif Require Export GreenStore.

(** what the allocation of an element contains *)
Definition gcell_of (g : green) : gcell :=
  match g with
  | GNode _ k tl cs => GCNode k tl (map (fun c => (c.1, gaddr c.2)) cs)
  | GTok _ k s => GCTok k s
  end.
Lemma cslots_of g : cslots (gcell_of g) = map gaddr (kids g).
Proof. destruct g as [a k tl cs|]; [|done]. simpl. unfold kids; simpl. by rewrite !map_map. Qed.
Lemma ckind_of g : ckind (gcell_of g) = gkind g.
Proof. by destruct g. Qed.
Lemma ctext_len_of g : ctext_len (gcell_of g) = green_text_len g.
Proof. by destruct g. Qed.
Lemma gcell_of_inj g1 g2 :
  gcell_of g1 = gcell_of g2 -> gaddr g1 = gaddr g2 -> kids g1 = kids g2 -> g1 = g2.
Proof.
  destruct g1 as [a k tl cs|a k s], g2 as [a2 k2 tl2 cs2|a2 k2 s2]; simpl; intros H1 H3 H4; simplify_eq; [|done].
  f_equal. unfold kids in H4. simpl in H4.
  revert cs2 H0 H4. induction cs as [|[o g] cs IH]; intros [|[o2 g2] cs2]; simpl; try done.
  intros H1 H4. simplify_eq. f_equal. by apply IH.
Qed.

(** proof device, no counterpart in the code *)
Inductive stored (m : gmem) : green -> Prop :=
| stored_intro g n : m !! gaddr g = Some (S n, gcell_of g) -> Forall (stored m) (kids g) -> stored m g.

Lemma kids_ind (P : green -> Prop) : (forall g, Forall P (kids g) -> P g) -> forall g, P g.
Proof.
  intros H g. induction g as [a k tl cs IH|a k s] using green_ind'; apply H; [|by constructor].
  unfold kids. simpl. by rewrite Forall_map.
Qed.

Lemma stored_inv m g : stored m g -> (exists n, m !! gaddr g = Some (S n, gcell_of g)) /\ Forall (stored m) (kids g).
Proof. intros H. inversion H; subst. eauto. Qed.
Lemma stored_det m g1 g2 : stored m g1 -> stored m g2 -> gaddr g1 = gaddr g2 -> g1 = g2.
Proof.
  revert g2. induction g1 as [g1 IH] using kids_ind. intros g2 [[n1 H1] K1]%stored_inv [[n2 H2] K2]%stored_inv Ha.
  rewrite Ha, H2 in H1. injection H1 as _ Hc. apply gcell_of_inj; [done..|].
  assert (Hs : map gaddr (kids g1) = map gaddr (kids g2)) by (rewrite <-!cslots_of; congruence).
  revert K2 Hs. generalize (kids g2). clear -IH K1. induction K1 as [|x l Hx Hl IHl]; intros [|y l2]; simpl; try done.
  intros [Hy Hl2]%Forall_cons [= Hxy Hs]. apply Forall_cons in IH as [IHx IH'].
  f_equal; [by apply IHx|by apply IHl].
Qed.

(** ** References *)
(** proof device, no counterpart in the code *)
Definition occ (a : addr) (l : list addr) : nat := count_occ Nat.eq_dec l a.
Arguments occ : simpl never.
Lemma occ_app a l1 l2 : occ a (l1 ++ l2) = occ a l1 + occ a l2.
Proof. apply count_occ_app. Qed.
Lemma occ_perm a l1 l2 : l1 ≡ₚ l2 -> occ a l1 = occ a l2.
Proof. intros H. by apply Permutation_count_occ. Qed.
Lemma occ_pos a l : a ∈ l <-> 0 < occ a l.
Proof. rewrite elem_of_list_In. unfold occ. by rewrite count_occ_In. Qed.
Lemma occ_cons a x l : occ a (x :: l) = (if decide (x = a) then 1 else 0) + occ a l.
Proof. unfold occ. simpl. destruct (Nat.eq_dec x a), (decide (x = a)); done. Qed.

(** all pointers stored in allocations *)
Definition refs (m : gmem) : list addr := concat (map (fun p => cslots p.2.2) (map_to_list m)).
Lemma concat_map_perm {A B} (f : A -> list B) l1 l2 : l1 ≡ₚ l2 -> concat (map f l1) ≡ₚ concat (map f l2).
Proof.
  induction 1; simpl; [done| by f_equiv | rewrite !app_assoc; f_equiv; apply Permutation_app_comm | by etrans].
Qed.
Lemma refs_insert_fresh m a n c : m !! a = None -> refs (<[a := (n, c)]> m) ≡ₚ cslots c ++ refs m.
Proof. intros H. unfold refs. by rewrite (concat_map_perm _ _ _ (map_to_list_insert m a (n, c) H)). Qed.
Lemma refs_delete m a n c : m !! a = Some (n, c) -> refs m ≡ₚ cslots c ++ refs (delete a m).
Proof.
  intros H. unfold refs. rewrite <-(concat_map_perm _ _ _ (map_to_list_delete m a (n, c) H)). done.
Qed.
Lemma refs_insert m a n c n' c' : m !! a = Some (n, c) ->
  cslots c ++ refs (<[a := (n', c')]> m) ≡ₚ cslots c' ++ refs m.
Proof.
  intros H. rewrite (refs_delete m a n c H).
  assert (Hi : <[a := (n', c')]> m = <[a := (n', c')]> (delete a m)) by (symmetry; apply insert_delete_insert).
  rewrite Hi, (refs_insert_fresh (delete a m)) by apply lookup_delete.
  rewrite !app_assoc. f_equiv. apply Permutation_app_comm.
Qed.
Lemma refs_count m a n n' c : m !! a = Some (n, c) -> refs (<[a := (n', c)]> m) ≡ₚ refs m.
Proof. intros H. apply (Permutation_app_inv_l (cslots c)). by eapply refs_insert. Qed.
Lemma refs_elem m a n c x : m !! a = Some (n, c) -> x ∈ cslots c -> x ∈ refs m.
Proof. intros H Hx. rewrite (refs_delete m a n c H). apply elem_of_app. by left. Qed.

(** ** The invariant: every count is the number of handles and stored pointers *)
(** proof device, no counterpart in the code *)
Record ginv (m : gmem) (L : list green) : Prop := {
  gi_handles : Forall (stored m) L;
  gi_count : forall a n c, m !! a = Some (n, c) -> n = occ a (map gaddr L ++ refs m);
  gi_stored : forall a n c, m !! a = Some (S n, c) -> exists g, gaddr g = a /\ stored m g;
  gi_dead : forall a c, m !! a = Some (0, c) -> cslots c = [];
}.

Lemma ginv_empty : ginv ∅ [].
Proof. split; [by apply Forall_nil|..]; intros *; by rewrite lookup_empty. Qed.
Lemma ginv_perm m L L' : L ≡ₚ L' -> ginv m L -> ginv m L'.
Proof.
  intros HL [H1 H2 H3 H4]. split; [by rewrite <-HL| |done..].
  intros a n c Ha. rewrite (H2 a n c Ha). apply occ_perm. by rewrite HL.
Qed.

Lemma stored_mono m m' g :
  (forall a n c, m !! a = Some (S n, c) -> exists n', m' !! a = Some (S n', c)) -> stored m g -> stored m' g.
Proof.
  intros H. induction g as [g IH] using kids_ind. intros [[n Hn] K]%stored_inv.
  destruct (H _ _ _ Hn) as [n' Hn']. econstructor; [done|].
  clear -IH K. induction K; [done|]. apply Forall_cons in IH as [??]. constructor; eauto.
Qed.
(** what does not pass through an address is unaffected by what happens there *)
Lemma stored_away m a g v :
  a ∉ refs m -> gaddr g <> a -> stored m g -> stored (<[a := v]> m) g.
Proof.
  intros Hr. induction g as [g IH] using kids_ind. intros Ha [[n Hn] K]%stored_inv.
  econstructor; [by rewrite lookup_insert_ne|].
  rewrite Forall_forall in *. intros x Hx. apply IH; [done| |by apply K].
  intros <-. apply Hr. eapply refs_elem; [done|]. rewrite cslots_of. apply elem_of_map. eauto.
Qed.

(** ** Height *)
(** proof device, no counterpart in the code *)
Fixpoint gheight (g : green) : nat :=
  match g with
  | GNode _ _ _ cs => S (foldr (fun c n => gheight c.2 `max` n) 0 cs)
  | GTok _ _ _ => 1
  end.
Lemma gheight_kid g x : x ∈ kids g -> gheight x < gheight g.
Proof.
  destruct g as [a k tl cs|a k s]; unfold kids; simpl; [|by intros ?%elem_of_nil].
  induction cs as [|c cs IH]; simpl; [by intros ?%elem_of_nil|].
  intros [->|H]%elem_of_cons; [lia|]. specialize (IH H). lia.
Qed.
Lemma gheight_pos g : 0 < gheight g.
Proof. destruct g; simpl; lia. Qed.
Lemma gheight_tall g : kids g = [] /\ gheight g = 1 \/ exists x, x ∈ kids g /\ gheight g = S (gheight x).
Proof.
  destruct g as [a k tl cs|a k s]; unfold kids; simpl; [|by left].
  induction cs as [|c cs IH]; simpl; [by left|]. right.
  destruct IH as [[-> IH]|(x&Hx&IH)].
  - exists c.2. split; [left|]. pose proof (gheight_pos c.2). simpl in IH. lia.
  - destruct (decide (gheight c.2 <= gheight x)).
    + exists x. split; [by right|lia].
    + exists c.2. split; [left|lia].
Qed.
Lemma gheight_dom m g : stored m g -> gheight g <= size m.
Proof.
  intros Hg.
  enough (exists l : list addr, length l = gheight g /\ NoDup l /\
            forall a, a ∈ l -> exists x, gaddr x = a /\ stored m x /\ gheight x <= gheight g) as (l&Hl&Hnd&Hin).
  { rewrite <-Hl. rewrite <-size_dom. rewrite <-(size_list_to_set (C := gset addr) l Hnd).
    apply subseteq_size. intros a Ha%elem_of_list_to_set. destruct (Hin a Ha) as (x&<-&[[n Hx] _]%stored_inv&_).
    apply elem_of_dom. eauto. }
  induction g as [g IH] using kids_ind. pose proof (stored_inv m g Hg) as [_ K].
  destruct (gheight_tall g) as [[_ Hh]|(x&Hx&Hh)].
  - exists [gaddr g]. rewrite Hh. split; [done|]. split; [apply NoDup_singleton|].
    intros a ->%elem_of_list_singleton. exists g. split; [done|]. split; [done|]. lia.
  - rewrite Forall_forall in IH, K. destruct (IH x Hx (K x Hx)) as (l&Hl&Hnd&Hin).
    exists (gaddr g :: l). simpl. split; [lia|]. split.
    + constructor; [|done]. intros Ha. destruct (Hin _ Ha) as (y&Hy&Hsy&Hhy).
      assert (y = g) as -> by by eapply stored_det. lia.
    + intros a [->|Ha]%elem_of_cons; [exists g; split; [done|split; [done|lia]]|].
      destruct (Hin a Ha) as (y&?&?&?). exists y. split; [done|]. split; [done|]. lia.
Qed.

(** ** Clone, alloc *)
Lemma gs_clone_ok h L g :
  ginv (gmm h) L -> stored (gmm h) g ->
  exists h', gs_clone (gaddr g) h = (Ok (), h') /\ ginv (gmm h') (g :: L) /\ dom (gmm h') = dom (gmm h) /\
    (forall x, stored (gmm h) x -> stored (gmm h') x).
Proof.
  intros [H1 H2 H3 H4] Hg. pose proof Hg as [[n Hn] K]%stored_inv. unfold gs_clone. rewrite Hn.
  eexists. split; [done|]. simpl.
  assert (Hmono : forall x, stored (gmm h) x -> stored (<[gaddr g:=(S (S n), gcell_of g)]> (gmm h)) x).
  { intros x. apply stored_mono. intros a n' c Ha. destruct (decide (a = gaddr g)) as [->|Hne].
    - rewrite lookup_insert. rewrite Hn in Ha. injection Ha as <- <-. eauto.
    - rewrite lookup_insert_ne by done. eauto. }
  split; [|split; [|done]].
  2:{ rewrite dom_insert_L. apply elem_of_dom_2 in Hn. set_solver. }
  split.
  - constructor; [by apply Hmono|]. eapply Forall_impl; [done|]. apply Hmono.
  - intros a n' c Ha. simpl. rewrite occ_cons, occ_app, (occ_perm _ _ _ (refs_count _ _ _ _ _ Hn)), <-occ_app.
    destruct (decide (gaddr g = a)) as [<-|Hne].
    + rewrite lookup_insert in Ha. injection Ha as <- _. rewrite <-(H2 _ _ _ Hn). lia.
    + rewrite lookup_insert_ne in Ha by done. by apply H2 in Ha.
  - intros a n' c Ha. destruct (decide (gaddr g = a)) as [<-|Hne].
    + exists g. split; [done|]. by apply Hmono.
    + rewrite lookup_insert_ne in Ha by done. destruct (H3 _ _ _ Ha) as (x&?&?). eauto.
  - intros a c Ha. destruct (decide (gaddr g = a)) as [<-|Hne].
    + by rewrite lookup_insert in Ha.
    + rewrite lookup_insert_ne in Ha by done. by eapply H4.
Qed.

Lemma not_in_refs m L a : ginv m L -> a ∉ dom m -> a ∉ refs m.
Proof.
  intros [H1 H2 H3 H4] Ha Hr. unfold refs in Hr. apply elem_of_list_In, in_concat in Hr as (l&Hl&Hx).
  apply in_map_iff in Hl as ([b [n c]]&<-&Hb). apply elem_of_list_In, elem_of_map_to_list in Hb. simpl in Hx.
  apply elem_of_list_In in Hx. destruct n as [|n].
  - rewrite (H4 _ _ Hb) in Hx. by apply elem_of_nil in Hx.
  - destruct (H3 _ _ _ Hb) as (g&<-&Hg). apply stored_inv in Hg as [[n' Hn] K].
    rewrite Hn in Hb. injection Hb as _ <-. rewrite cslots_of in Hx. apply elem_of_map in Hx as (y&->&Hy).
    rewrite Forall_forall in K. apply K in Hy. apply stored_inv in Hy as [[n2 Hn2] _].
    apply elem_of_dom_2 in Hn2. done.
Qed.
Lemma not_in_handles m L a : Forall (stored m) L -> a ∉ dom m -> a ∉ map gaddr L.
Proof.
  intros HF Ha (y&->&Hy)%elem_of_map. rewrite Forall_forall in HF. apply HF in Hy.
  apply stored_inv in Hy as [[n Hn] _]. apply elem_of_dom_2 in Hn. done.
Qed.

(** a new element made of handles: the handles move into it *)
Lemma gs_alloc_ok al h L g :
  galloc_ok al -> ginv (gmm h) (kids g ++ L) -> gaddr g = al (gck h) (dom (gmm h)) ->
  exists h', gs_alloc al (gcell_of g) h = (Ok (gaddr g), h') /\ ginv (gmm h') (g :: L) /\
    dom (gmm h') = {[gaddr g]} ∪ dom (gmm h) /\
    (forall x, stored (gmm h) x -> stored (gmm h') x) /\ gck h' = S (gck h).
Proof.
  intros Hal Hinv Ha. pose proof Hinv as [H1 H2 H3 H4]. unfold gs_alloc. rewrite <-Ha.
  assert (Hfr : gaddr g ∉ dom (gmm h)) by (rewrite Ha; apply Hal).
  pose proof (proj1 (not_elem_of_dom _ _) Hfr) as Hno.
  assert (Hmono : forall x, stored (gmm h) x -> stored (<[gaddr g:=(1, gcell_of g)]> (gmm h)) x).
  { intros x. apply stored_mono. intros a n' c Hx. rewrite lookup_insert_ne by congruence. eauto. }
  eexists. split; [done|]. simpl. split; [|split; [by rewrite dom_insert_L|done]].
  apply Forall_app in H1 as [Hk HL].
  assert (Hg : stored (<[gaddr g:=(1, gcell_of g)]> (gmm h)) g).
  { econstructor; [by rewrite lookup_insert|]. eapply Forall_impl; [done|]. apply Hmono. }
  split.
  - constructor; [done|]. eapply Forall_impl; [done|]. apply Hmono.
  - intros a n c Hc. simpl. rewrite occ_cons, occ_app, (occ_perm _ _ _ (refs_insert_fresh _ _ _ _ Hno)).
    rewrite cslots_of.
    assert (Heq : occ a (map gaddr L) + occ a (map gaddr (kids g) ++ refs (gmm h)) =
                  occ a (map gaddr (kids g ++ L) ++ refs (gmm h))).
    { rewrite map_app, !occ_app. lia. }
    destruct (decide (gaddr g = a)) as [<-|Hne].
    + rewrite lookup_insert in Hc. injection Hc as <- _.
      rewrite Heq. assert (gaddr g ∉ map gaddr (kids g ++ L) ++ refs (gmm h)) as Hn.
      { rewrite elem_of_app. intros [Hin|Hin].
        - eapply not_in_handles; [|done|done]. by apply (gi_handles _ _ Hinv).
        - by eapply not_in_refs. }
      rewrite occ_pos in Hn. lia.
    + rewrite lookup_insert_ne in Hc by done. rewrite (H2 _ _ _ Hc), <-Heq. lia.
  - intros a n c Hc. destruct (decide (gaddr g = a)) as [<-|Hne]; [eauto|].
    rewrite lookup_insert_ne in Hc by done. destruct (H3 _ _ _ Hc) as (x&?&?). eauto.
  - intros a c Hc. destruct (decide (gaddr g = a)) as [<-|Hne]; [by rewrite lookup_insert in Hc|].
    rewrite lookup_insert_ne in Hc by done. eauto.
Qed.

(** ** Drop *)
(** proof device, no counterpart in the code *)
Definition same_dead (m m' : gmem) : Prop := forall a c, m !! a = Some (0, c) <-> m' !! a = Some (0, c).
(** the last reference goes: the children become handles *)
Lemma drop_last m L g :
  ginv m (g :: L) -> m !! gaddr g = Some (1, gcell_of g) ->
  ginv (<[gaddr g := (0, GCTok (ckind (gcell_of g)) [])]> m) (kids g ++ L).
Proof.
  intros Hinv Hn. pose proof Hinv as [H1 H2 H3 H4]. apply Forall_cons in H1 as [Hg HL].
  pose proof Hg as [_ K]%stored_inv.
  pose proof (H2 _ _ _ Hn) as Hcnt. simpl in Hcnt. rewrite occ_cons, decide_True in Hcnt by done.
  assert (Hno : occ (gaddr g) (map gaddr L ++ refs m) = 0) by lia.
  rewrite occ_app in Hno.
  assert (Hnr : gaddr g ∉ refs m) by (rewrite occ_pos; lia).
  assert (HnL : gaddr g ∉ map gaddr L) by (rewrite occ_pos; lia).
  set (e := GCTok (ckind (gcell_of g)) []).
  set (m1 := <[gaddr g := (0, e)]> m).
  assert (Hrefs : refs m ≡ₚ map gaddr (kids g) ++ refs m1).
  { pose proof (refs_insert m (gaddr g) _ _ 0 e Hn) as Hp. simpl in Hp. rewrite cslots_of in Hp. by rewrite <-Hp. }
  assert (Haway : forall x, stored m x -> gaddr x <> gaddr g -> stored m1 x).
  { intros x Hx Hne. by apply stored_away. }
  split.
  - apply Forall_app. rewrite !Forall_forall in *. split.
    + intros x Hx. apply Haway; [by apply K|]. intros Heq. apply Hnr. rewrite <-Heq, Hrefs.
      apply elem_of_app. left. apply elem_of_map. eauto.
    + intros x Hx. apply Haway; [by apply HL|]. intros Heq. apply HnL. rewrite <-Heq. apply elem_of_map. eauto.
  - intros a n c Hc.
    assert (Heq : occ a (map gaddr (kids g ++ L) ++ refs m1) = occ a (map gaddr L ++ refs m)).
    { rewrite map_app, !occ_app, (occ_perm _ _ _ Hrefs), occ_app. lia. }
    rewrite Heq. destruct (decide (gaddr g = a)) as [<-|Hne].
    + unfold m1 in Hc. rewrite lookup_insert in Hc. injection Hc as <- _. rewrite occ_app. lia.
    + unfold m1 in Hc. rewrite lookup_insert_ne in Hc by done.
      rewrite (H2 _ _ _ Hc). simpl. rewrite occ_cons, decide_False by done. done.
  - intros a n c Hc. unfold m1 in Hc. destruct (decide (gaddr g = a)) as [<-|Hne].
    + by rewrite lookup_insert in Hc.
    + rewrite lookup_insert_ne in Hc by done. destruct (H3 _ _ _ Hc) as (x&<-&Hx).
      exists x. split; [done|]. by apply Haway.
  - intros a c Hc. unfold m1 in Hc. destruct (decide (gaddr g = a)) as [<-|Hne].
    + rewrite lookup_insert in Hc. by injection Hc as <-.
    + rewrite lookup_insert_ne in Hc by done. eauto.
Qed.
Lemma gs_drop_rec_ok g : forall d h L,
  gheight g <= d -> ginv (gmm h) (g :: L) ->
  exists h', gs_drop_rec d (gaddr g) h = (Ok (), h') /\ ginv (gmm h') L /\ same_dead (gmm h) (gmm h') /\
    dom (gmm h') ⊆ dom (gmm h) /\ gck h' = gck h.
Proof.
  induction g as [g IH] using kids_ind. intros d h L Hd Hinv.
  destruct d as [|d]; [pose proof (gheight_pos g); lia|].
  pose proof Hinv as [H1 H2 H3 H4]. apply Forall_cons in H1 as [Hg HL].
  pose proof Hg as [[n Hn] K]%stored_inv. simpl. rewrite Hn.
  pose proof (H2 _ _ _ Hn) as Hcnt. simpl in Hcnt. rewrite occ_cons, decide_True in Hcnt by done.
  destruct n as [|n].
  - (* last reference *)
    set (e := GCTok (ckind (gcell_of g)) []).
    set (m1 := <[gaddr g := (0, e)]> (gmm h)).
    assert (Hinv1 : ginv m1 (kids g ++ L)) by by apply drop_last.
    assert (Hloop : forall ks h1, Forall (fun x => forall d h L, gheight x <= d -> ginv (gmm h) (x :: L) ->
                exists h', gs_drop_rec d (gaddr x) h = (Ok (), h') /\ ginv (gmm h') L /\ same_dead (gmm h) (gmm h') /\
                  dom (gmm h') ⊆ dom (gmm h) /\ gck h' = gck h) ks ->
              Forall (fun x => gheight x <= d) ks -> ginv (gmm h1) (ks ++ L) ->
              exists h', gs_each (gs_drop_rec d) (map gaddr ks) h1 = (Ok (), h') /\ ginv (gmm h') L /\
                same_dead (gmm h1) (gmm h') /\ dom (gmm h') ⊆ dom (gmm h1) /\ gck h' = gck h1).
    { clear. induction ks as [|x ks IHk]; intros h1 HF Hh Hi; simpl.
      - exists h1. by split_and!.
      - apply Forall_cons in HF as [Hx HF]. apply Forall_cons in Hh as [Hhx Hh].
        destruct (Hx d h1 (ks ++ L) Hhx Hi) as (h2&E2&Hi2&Hd2&Hs2&Hc2).
        destruct (IHk h2 HF Hh Hi2) as (h3&E3&Hi3&Hd3&Hs3&Hc3).
        exists h3. change (gs_each (gs_drop_rec d) (map gaddr (x :: ks)) h1) with
          ((_ ← gs_drop_rec d (gaddr x); gs_each (gs_drop_rec d) (map gaddr ks)) h1).
        unfold mbind, gsm_bind. rewrite E2. split; [done|]. split; [done|]. split; [|split; [set_solver|congruence]].
        intros a c. by rewrite (Hd2 a c), (Hd3 a c). }
    destruct (Hloop (kids g) (GST m1 (gck h)) IH) as (h2&E2&Hi2&Hd2&Hs2&Hc2); [|done|].
    { apply Forall_forall. intros x Hx. pose proof (gheight_kid g x Hx). lia. }
    simpl in Hd2, Hs2, Hc2.
    exists (GST (delete (gaddr g) (gmm h2)) (gck h2)).
    assert (Hdead : gmm h2 !! gaddr g = Some (0, e)).
    { apply Hd2. unfold m1. apply lookup_insert. }
    split.
    { rewrite cslots_of. unfold mbind, gsm_bind, gs_set. fold e. fold m1. rewrite E2. done. }
    simpl. destruct Hi2 as [I1 I2 I3 I4].
    assert (Hmono : forall x, stored (gmm h2) x -> stored (delete (gaddr g) (gmm h2)) x).
    { intros x. apply stored_mono. intros a n c Hc. rewrite lookup_delete_ne; [eauto|]. intros <-. congruence. }
    assert (Hr2 : refs (gmm h2) ≡ₚ refs (delete (gaddr g) (gmm h2))) by apply (refs_delete _ _ _ _ Hdead).
    split; [|split; [|split; [|done]]].
    + split.
      * eapply Forall_impl; [done|]. apply Hmono.
      * intros a n c Hc. rewrite lookup_delete_Some in Hc. destruct Hc as [_ Hc]. rewrite (I2 _ _ _ Hc).
        rewrite !occ_app. by rewrite (occ_perm _ _ _ Hr2).
      * intros a n c Hc. rewrite lookup_delete_Some in Hc. destruct Hc as [_ Hc].
        destruct (I3 _ _ _ Hc) as (x&?&?). eauto.
      * intros a c Hc. rewrite lookup_delete_Some in Hc. destruct Hc as [_ Hc]. eauto.
    + intros a c. destruct (decide (gaddr g = a)) as [<-|Hne].
      * rewrite lookup_delete, Hn. split; congruence.
      * rewrite lookup_delete_ne by done. rewrite <-(Hd2 a c). unfold m1. by rewrite lookup_insert_ne.
    + rewrite dom_delete_L. unfold m1 in Hs2. rewrite dom_insert_L in Hs2. set_solver.
  - (* other references remain *)
    eexists. split; [done|]. simpl.
    assert (Hmono : forall x, stored (gmm h) x -> stored (<[gaddr g:=(S n, gcell_of g)]> (gmm h)) x).
    { intros x. apply stored_mono. intros a n' c Ha. destruct (decide (a = gaddr g)) as [->|Hne].
      - rewrite lookup_insert. rewrite Hn in Ha. injection Ha as <- <-. eauto.
      - rewrite lookup_insert_ne by done. eauto. }
    split; [|split; [|split; [|done]]].
    + split.
      * eapply Forall_impl; [done|]. apply Hmono.
      * intros a n' c Ha. rewrite occ_app, (occ_perm _ _ _ (refs_count _ _ _ _ _ Hn)), <-occ_app.
        destruct (decide (gaddr g = a)) as [<-|Hne].
        -- rewrite lookup_insert in Ha. injection Ha as <- _. lia.
        -- rewrite lookup_insert_ne in Ha by done. apply H2 in Ha. simpl in Ha.
           by rewrite occ_cons, decide_False in Ha by done.
      * intros a n' c Ha. destruct (decide (gaddr g = a)) as [<-|Hne].
        -- exists g. split; [done|]. by apply Hmono.
        -- rewrite lookup_insert_ne in Ha by done. destruct (H3 _ _ _ Ha) as (x&?&?). eauto.
      * intros a c Ha. destruct (decide (gaddr g = a)) as [<-|Hne].
        -- by rewrite lookup_insert in Ha.
        -- rewrite lookup_insert_ne in Ha by done. by eapply H4.
    + intros a c. destruct (decide (gaddr g = a)) as [<-|Hne].
      * rewrite lookup_insert, Hn. split; congruence.
      * by rewrite lookup_insert_ne.
    + rewrite dom_insert_L. apply elem_of_dom_2 in Hn. set_solver.
Qed.

(** the invariant between calls: nothing is half dropped *)
Definition gok (m : gmem) (L : list green) : Prop := ginv m L /\ forall a c, m !! a <> Some (0, c).
Lemma gok_empty : gok ∅ [].
Proof. split; [apply ginv_empty|]. intros a c. by rewrite lookup_empty. Qed.
Lemma gok_perm m L L' : L ≡ₚ L' -> gok m L -> gok m L'.
Proof. intros HL [H1 H2]. split; [by eapply ginv_perm|done]. Qed.

Lemma gs_drop_ok g h L :
  gok (gmm h) (g :: L) ->
  exists h', gs_drop (gaddr g) h = (Ok (), h') /\ gok (gmm h') L /\ gck h' = gck h.
Proof.
  intros [Hi Hz]. unfold gs_drop. destruct (gs_drop_rec_ok g (S (size (gmm h))) h L) as (h'&E&Hi'&Hd&_&Hc).
  - enough (gheight g <= size (gmm h)) by lia. apply gheight_dom. pose proof (gi_handles _ _ Hi) as HF.
    by apply Forall_cons in HF as [? _].
  - done.
  - exists h'. split; [done|]. split; [|done]. split; [done|]. intros a c Hac. apply Hd in Hac. by apply (Hz a c).
Qed.
Lemma gs_drops_ok gs h L :
  gok (gmm h) (gs ++ L) ->
  exists h', gs_each gs_drop (map gaddr gs) h = (Ok (), h') /\ gok (gmm h') L /\ gck h' = gck h.
Proof.
  revert h. induction gs as [|g gs IH]; intros h Hi; simpl; [exists h; done|].
  destruct (gs_drop_ok g h (gs ++ L) Hi) as (h1&E1&Hi1&Hc1). destruct (IH h1 Hi1) as (h2&E2&Hi2&Hc2).
  exists h2. unfold mbind, gsm_bind. rewrite E1, E2. split; [done|]. split; [done|]. congruence.
Qed.
Lemma gs_clone_gok h L g :
  gok (gmm h) L -> stored (gmm h) g ->
  exists h', gs_clone (gaddr g) h = (Ok (), h') /\ gok (gmm h') (g :: L) /\ dom (gmm h') = dom (gmm h) /\
    (forall x, stored (gmm h) x -> stored (gmm h') x) /\ gck h' = gck h.
Proof.
  intros [Hi Hz] Hg. destruct (gs_clone_ok h L g Hi Hg) as (h'&E&Hi'&Hd&Hs).
  exists h'. split; [done|].
  unfold gs_clone in E. apply stored_inv in Hg as [[n Hn] _]. rewrite Hn in E. injection E as <-. simpl in *.
  split; [|done]. split; [done|]. intros a c. destruct (decide (gaddr g = a)) as [<-|Hne].
  - rewrite lookup_insert. congruence.
  - rewrite lookup_insert_ne by done. apply Hz.
Qed.
Lemma gs_clones_ok gs h L :
  gok (gmm h) L -> Forall (stored (gmm h)) gs ->
  exists h', gs_each gs_clone (map gaddr gs) h = (Ok (), h') /\ gok (gmm h') (gs ++ L) /\
    dom (gmm h') = dom (gmm h) /\ (forall x, stored (gmm h) x -> stored (gmm h') x) /\ gck h' = gck h.
Proof.
  revert h L. induction gs as [|g gs IH]; intros h L Hi HF; simpl; [exists h; done|].
  apply Forall_cons in HF as [Hg HF].
  destruct (gs_clone_gok h L g Hi Hg) as (h1&E1&Hi1&Hd1&Hs1&Hc1).
  destruct (IH h1 (g :: L) Hi1) as (h2&E2&Hi2&Hd2&Hs2&Hc2).
  { eapply Forall_impl; [done|]. apply Hs1. }
  exists h2. unfold mbind, gsm_bind. rewrite E1, E2. split; [done|]. split.
  - eapply gok_perm; [|done]. by rewrite <-Permutation_middle.
  - split; [congruence|]. split; [auto|congruence].
Qed.
Lemma gs_alloc_gok al h L g :
  galloc_ok al -> gok (gmm h) (kids g ++ L) -> gaddr g = al (gck h) (dom (gmm h)) ->
  exists h', gs_alloc al (gcell_of g) h = (Ok (gaddr g), h') /\ gok (gmm h') (g :: L) /\
    dom (gmm h') = {[gaddr g]} ∪ dom (gmm h) /\ gck h' = S (gck h).
Proof.
  intros Hal [Hi Hz] Ha. destruct (gs_alloc_ok al h L g Hal Hi Ha) as (h'&E&Hi'&Hd&Hs&Hc).
  exists h'. split; [done|]. unfold gs_alloc in E. injection E as _ <-. simpl in *.
  split; [|done]. split; [done|]. intros a c. destruct (decide (al (gck h) (dom (gmm h)) = a)) as [<-|Hne].
  - rewrite lookup_insert. congruence.
  - rewrite lookup_insert_ne by done. apply Hz.
Qed.
Lemma gs_cell_ok h g : stored (gmm h) g -> gs_cell (gaddr g) h = (Ok (gcell_of g), h).
Proof. intros [[n Hn] _]%stored_inv. unfold gs_cell. by rewrite Hn. Qed.

(** ** GreenNode::new *)
(** an item with the element behind it *)
Definition item := (bool * green)%type. (* owned? *)
Definition isrc (i : item) : src := if i.1 then Own (gaddr i.2) else Ref (gaddr i.2).
(** proof device, no counterpart in the code *)
Definition owned (l : list item) : list green := filter_map (fun i : item => if i.1 then Some i.2 else None) l.
Lemma owned_all gs : owned (map (pair true) gs) = gs.
Proof. induction gs as [|g gs IH]; simpl; [done|]. change (g :: owned (map (pair true) gs) = g :: gs). by rewrite IH. Qed.

(** offsets of the elements accepted before the first one that does not fit *)
Fixpoint accepted (pr : profile) (o : N) (els : list green) : list (N * green) * (N + list green) :=
  match els with
  | [] => ([], inl o)
  | e :: els' =>
      match l ← green_text_len e; add32 pr o l with
      | Ok o' => let '(w, r) := accepted pr o' els' in ((o, e) :: w, r)
      | Err _ => ([], inr els)
      end
  end.
Lemma accepted_assign pr o els :
  match accepted pr o els with
  | (w, inl t) => assign_offsets pr o els = Ok (w, t)
  | (w, inr rest) => assign_offsets pr o els = Err Panic /\ els = map snd w ++ rest /\ rest <> []
  end.
Proof.
  revert o. induction els as [|e els IH]; intros o; simpl; [done|].
  destruct (green_text_len e) as [l|er] eqn:El; simpl.
  - destruct (add32 pr o l) as [o'|er] eqn:Ea; simpl.
    + specialize (IH o'). destruct (accepted pr o' els) as [w [t|rest]]; simpl.
      * by rewrite IH.
      * destruct IH as (->&->&?). done.
    + split; [|done]. unfold add32 in Ea. destruct (_ <=? _)%N; [done|]. destruct pr; [|done]. by injection Ea as <-.
  - split; [|done]. destruct e; simpl in El; [done|]. destruct (_ <=? _)%N; [done|]. by injection El as <-.
Qed.

Lemma gs_fill_ok pr items : forall o h L,
  gok (gmm h) (owned items ++ L) -> Forall (fun i => stored (gmm h) i.2) items ->
  exists h' w r, gs_fill pr o (map isrc items) h = (Ok (map (fun c => (c.1, gaddr c.2)) w, r), h') /\
    dom (gmm h') = dom (gmm h) /\ gck h' = gck h /\
    match accepted pr o (map snd items) with
    | (w', inl t) => w = w' /\ r = inl t /\ gok (gmm h') (map snd w ++ L)
    | (w', inr rest) => w = w' /\ exists rest', r = inr (map isrc rest') /\
        gok (gmm h') (map snd w ++ owned rest' ++ L)
    end.
Proof.
  induction items as [|[b g] items IH]; intros o h L Hi HF; simpl.
  - exists h, [], (inl o). split; [done|]. split; [done|]. split; [done|]. done.
  - apply Forall_cons in HF as [Hg HF]. simpl in Hg.
    assert (exists h1, gs_take (isrc (b, g)) h = (Ok (gaddr g), h1) /\ gok (gmm h1) (g :: owned items ++ L) /\
      dom (gmm h1) = dom (gmm h) /\ gck h1 = gck h /\ Forall (fun i => stored (gmm h1) i.2) items /\ stored (gmm h1) g)
      as (h1&E1&Hi1&Hd1&Hc1&HF1&Hg1).
    { destruct b; simpl in *.
      - exists h. done.
      - destruct (gs_clone_gok h (owned items ++ L) g Hi Hg) as (h1&E1&Hi1&Hd1&Hs1&Hc1).
        exists h1. unfold mbind, gsm_bind. unfold isrc. simpl. rewrite E1. split; [done|]. split; [done|].
        split; [done|]. split; [done|]. split; [|by apply Hs1].
        eapply Forall_impl; [done|]. intros i. apply Hs1. }
    unfold mbind, gsm_bind. rewrite E1. rewrite (gs_cell_ok h1 g Hg1), ctext_len_of.
    change (res_bind N N (λ l, add32 pr o l) (green_text_len g)) with (l ← green_text_len g; add32 pr o l).
    destruct (l ← green_text_len g; add32 pr o l) as [o'|er] eqn:Eo.
    + destruct (IH o' h1 (g :: L)) as (h2&w&r&E2&Hd2&Hc2&Hr).
      { eapply gok_perm; [|done]. by rewrite <-Permutation_middle. }
      { done. }
      rewrite E2. destruct (accepted pr o' (map snd items)) as [w' [t|rest]].
      * destruct Hr as (->&->&Hi2). exists h2, ((o, g) :: w'), (inl t). split; [done|].
        split; [congruence|]. split; [congruence|]. split; [done|]. split; [done|].
        eapply gok_perm; [|done]. simpl. by rewrite <-Permutation_middle.
      * destruct Hr as (->&rest'&->&Hi2). exists h2, ((o, g) :: w'), (inr (map isrc rest')). split; [done|].
        split; [congruence|]. split; [congruence|]. split; [done|]. exists rest'. split; [done|].
        eapply gok_perm; [|done]. simpl. rewrite !app_assoc. by rewrite <-Permutation_middle.
    + exists h1, [], (inr (map isrc ((true, g) :: items))). split; [done|].
      split; [done|]. split; [done|]. split; [done|]. exists ((true, g) :: items). done.
Qed.

Lemma gs_untake_ok items h L :
  gok (gmm h) (owned items ++ L) ->
  exists h', gs_each gs_untake (map isrc items) h = (Ok (), h') /\ gok (gmm h') L /\ gck h' = gck h.
Proof.
  revert h. induction items as [|[b g] items IH]; intros h Hi; simpl; [exists h; done|].
  destruct b; simpl in Hi; simpl.
  - change (gs_untake (isrc (true, g))) with (gs_drop (gaddr g)). destruct (gs_drop_ok g h (owned items ++ L) Hi) as (h1&E1&Hi1&Hc1).
    destruct (IH h1 Hi1) as (h2&E2&Hi2&Hc2). exists h2. unfold mbind, gsm_bind. rewrite E1, E2.
    split; [done|]. split; [done|]. congruence.
  - destruct (IH h Hi) as (h2&E2&Hi2&Hc2). exists h2. unfold mbind, gsm_bind. change (gs_untake (isrc (false, g))) with (mret () : gsm unit). unfold mret, gsm_ret. rewrite E2. done.
Qed.

(** building: either the node that [green_new] describes, or a panic and a leaked allocation holding the children accepted so far *)
Lemma gs_new_ok al pr k items h L :
  galloc_ok al -> gok (gmm h) (owned items ++ L) -> Forall (fun i => stored (gmm h) i.2) items ->
  let a := al (gck h) (dom (gmm h)) in
  match green_new pr a k (map snd items) with
  | Ok g => exists h', gs_new al pr k (map isrc items) h = (Ok a, h') /\ gok (gmm h') (g :: L)
  | Err e => e = Panic /\ exists h', gs_new al pr k (map isrc items) h = (Err Panic, h') /\
      gok (gmm h') (GNode a k 0 (accepted pr 0 (map snd items)).1 :: L)
  end.
Proof.
  intros Hal Hi HF a. pose proof (accepted_assign pr 0 (map snd items)) as Hacc. unfold green_new.
  destruct (gs_fill_ok pr items 0 h L Hi HF) as (h1&w&r&E1&Hd1&Hc1&Hr).
  destruct (accepted pr 0 (map snd items)) as [w' [t|rest]].
  - destruct Hr as (->&->&Hi1). rewrite Hacc. simpl.
    destruct (gs_alloc_gok al h1 L (GNode a k t w') Hal) as (h2&E2&Hi2&_); [done|by rewrite Hd1, Hc1|].
    exists h2. unfold gs_new, mbind, gsm_bind. rewrite E1. split; [|done]. exact E2.
  - destruct Hr as (->&rest'&->&Hi1). destruct Hacc as (->&_&_). simpl. split; [done|].
    destruct (gs_alloc_gok al h1 (owned rest' ++ L) (GNode a k 0 w') Hal) as (h2&E2&Hi2&_&Hc2); [done|by rewrite Hd1, Hc1|].
    destruct (gs_untake_ok rest' h2 (GNode a k 0 w' :: L)) as (h3&E3&Hi3&_).
    { eapply gok_perm; [|done]. by rewrite Permutation_middle. }
    exists h3. unfold gs_new, mbind, gsm_bind. rewrite E1.
    change (gs_alloc al (GCNode k 0 (map (λ c : N * green, (c.1, gaddr c.2)) w')) h1) with
      (gs_alloc al (gcell_of (GNode a k 0 w')) h1). rewrite E2, E3. done.
Qed.

(** ** Edits *)
Lemma vec_splice_map {A B} (f : A -> B) l lo hi els :
  vec_splice (map f l) lo hi (map f els) = map f <$> vec_splice l lo hi els.
Proof.
  unfold vec_splice. rewrite map_length. destruct (_ && _); [|done].
  cbn [fmap res_fmap]. f_equal. rewrite !map_app. rewrite firstn_map, skipn_map. done.
Qed.
Lemma forall_stored_items {m} gs : Forall (stored m) gs -> Forall (fun i => stored m i.2) (map (pair true) gs).
Proof. intros H. by rewrite Forall_map. Qed.
Lemma isrc_own gs : map isrc (map (pair true) gs) = map Own (map gaddr gs).
Proof. rewrite !map_map. done. Qed.
Lemma snd_own {A} (gs : list A) : map snd (map (pair true) gs) = gs.
Proof. rewrite map_map. simpl. apply map_id. Qed.

Lemma stored_gsub m g p x : stored m g -> gsub g p = Some x -> stored m x.
Proof.
  revert g. induction p as [|i p IH]; intros g Hg; simpl; [by intros [= <-]|].
  destruct (gchildren g !! i) as [c|] eqn:E; [|done]. intros H. apply (IH c.2); [|done].
  apply stored_inv in Hg as [_ K]. unfold kids in K. rewrite Forall_map, Forall_forall in K.
  apply K. by eapply elem_of_list_lookup_2.
Qed.
Lemma stored_gaddrs m g a : stored m g -> a ∈ gaddrs g -> a ∈ dom m.
Proof.
  induction g as [b k tl cs IH|b k s] using green_ind'; intros Hg; simpl; pose proof Hg as [[n Hn] K]%stored_inv; simpl in Hn.
  - intros [->|Hin]%elem_of_cons; [by eapply elem_of_dom_2|].
    apply elem_of_list_In, in_concat in Hin as (l&Hl&Hx). apply in_map_iff in Hl as (c&<-&Hc).
    apply elem_of_list_In in Hx. apply elem_of_list_In in Hc. rewrite Forall_forall in IH. apply (IH c Hc); [|done].
    unfold kids in K. simpl in K. rewrite Forall_map, Forall_forall in K. by apply K.
  - intros ->%elem_of_list_singleton. by eapply elem_of_dom_2.
Qed.
(** proof device, no counterpart in the code *)
Definition away (a : addr) (L : list green) : Prop := forall x, x ∈ L -> a ∉ gaddrs x.
Lemma away_dom m L a : gok m L -> a ∉ dom m -> away a L.
Proof.
  intros Hi Ha x Hx Hin. apply Ha. eapply stored_gaddrs; [|done].
  destruct Hi as [Hi _]. pose proof (gi_handles _ _ Hi) as HF. rewrite Forall_forall in HF. by apply HF.
Qed.
Lemma away_sub a L L' : (forall x, x ∈ L' -> x ∈ L) -> away a L -> away a L'.
Proof. intros H Ha x Hx. by apply Ha, H. Qed.
(** what a constructor call does to the memory *)
Definition built_or_leaked (pr : profile) (k : kind) (els own L : list green) (r : res addr) (m : gmem) : Prop :=
  exists a, away a (own ++ L) /\ match green_new pr a k els with
  | Ok g => r = Ok a /\ gok m (g :: L)
  | Err e => r = Err Panic /\ gok m (GNode a k 0 (accepted pr 0 els).1 :: L)
  end.
Lemma gs_new_items al pr k items h L :
  galloc_ok al -> gok (gmm h) (owned items ++ L) -> Forall (fun i => stored (gmm h) i.2) items ->
  exists r h', gs_new al pr k (map isrc items) h = (r, h') /\ built_or_leaked pr k (map snd items) (owned items) L r (gmm h').
Proof.
  intros Hal Hi HF. pose proof (gs_new_ok al pr k items h L Hal Hi HF) as H. cbv zeta in H.
  destruct (green_new pr _ k (map snd items)) as [g|e] eqn:Eg.
  - destruct H as (h'&E&Hi'). eexists _, h'. split; [done|]. eexists. split; [|by rewrite Eg].
    eapply away_dom; [done|apply Hal].
  - destruct H as (->&h'&E&Hi'). eexists _, h'. split; [done|]. eexists. split; [|by rewrite Eg].
    eapply away_dom; [done|apply Hal].
Qed.
Lemma gs_new_own al pr k els h L :
  galloc_ok al -> gok (gmm h) (els ++ L) ->
  exists r h', gs_new al pr k (map Own (map gaddr els)) h = (r, h') /\ built_or_leaked pr k els els L r (gmm h').
Proof.
  intros Hal Hi. destruct (gs_new_items al pr k (map (pair true) els) h L Hal) as (r&h'&E&Hb).
  { by rewrite owned_all. }
  2:{ rewrite isrc_own in E. rewrite snd_own, owned_all in Hb. eauto. }
  apply forall_stored_items. pose proof (gi_handles _ _ (proj1 Hi)) as HF. by apply Forall_app in HF as [? _].
Qed.

Lemma splice_perm {A} (l : list A) s e els : s <= e ->
  l ++ els ≡ₚ take (e - s) (drop s l) ++ (take s l ++ els ++ drop e l).
Proof.
  intros Hse. rewrite <-(take_drop s l) at 1. rewrite <-(take_drop (e - s) (drop s l)) at 1.
  rewrite drop_drop. replace (s + (e - s)) with e by lia. solve_Permutation.
Qed.
Lemma gs_splice_ok al pr g lo hi els h L :
  galloc_ok al -> gok (gmm h) (els ++ L) -> stored (gmm h) g ->
  exists r h', gs_splice al pr (gaddr g) lo hi (map gaddr els) h = (r, h') /\
    match vec_splice (kids g) lo hi els with
    | Ok children => built_or_leaked pr (gkind g) children els L r (gmm h')
    | Err _ => r = Err Panic /\ gok (gmm h') L
    end.
Proof.
  intros Hal Hi Hg. unfold gs_splice, mbind, gsm_bind. rewrite (gs_cell_ok h g Hg), ckind_of, cslots_of.
  destruct (gs_clones_ok (kids g) h (els ++ L) Hi) as (h1&E1&Hi1&Hd1&Hs1&Hc1).
  { by apply stored_inv in Hg as [_ ?]. }
  rewrite E1, vec_splice_map, map_length. unfold vec_splice.
  destruct (Nat.leb_spec (bound_start lo) (bound_end (length (kids g)) hi)) as [Hse|Hse];
    [destruct (Nat.leb_spec (bound_end (length (kids g)) hi) (length (kids g))) as [Hel|Hel]|];
    rewrite ?andb_true_l, ?andb_false_l; cbn [fmap res_fmap].
  2,3: destruct (gs_drops_ok (kids g) h1 (els ++ L) Hi1) as (h2&E2&Hi2&_);
    destruct (gs_drops_ok els h2 L Hi2) as (h3&E3&Hi3&_);
    exists (Err Panic), h3; unfold mbind, gsm_bind; rewrite E2, E3; done.
  set (s := bound_start lo) in *. set (e := bound_end (length (kids g)) hi) in *.
  assert (Hrem : take (e - s) (drop s (map gaddr (kids g))) = map gaddr (take (e - s) (drop s (kids g)))).
  { by rewrite skipn_map, firstn_map. }
  rewrite Hrem.
  destruct (gs_drops_ok (take (e - s) (drop s (kids g))) h1 ((take s (kids g) ++ els ++ drop e (kids g)) ++ L)) as (h2&E2&Hi2&_).
  { eapply gok_perm; [|done]. rewrite !app_assoc. f_equiv. rewrite <-!app_assoc. by apply splice_perm. }
  rewrite E2. destruct (gs_new_own al pr (gkind g) _ h2 L Hal Hi2) as (r&h3&E3&a&Ha&Hr).
  exists r, h3. split; [done|]. exists a. split; [|done]. eapply away_sub; [|done].
  intros x. rewrite !elem_of_app. tauto.
Qed.

Lemma imap_replace {A B} (f : A -> B) (v : B) ks : forall i,
  imap (fun j x => if j =? i then v else f x) ks =
  if i <? length ks then map f (take i ks) ++ v :: map f (drop (S i) ks) else map f ks.
Proof.
  induction ks as [|x ks IH]; intros i; [done|]. simpl imap. destruct i as [|i]; simpl.
  - f_equal. clear. generalize 1. induction ks as [|x ks IH]; intros n; [done|]. simpl.
    f_equal. exact (IH (S n)).
  - transitivity (f x :: imap (fun j y => if j =? i then v else f y) ks); [by f_equal; apply imap_ext|].
    rewrite IH. change (S i <? S (length ks)) with (i <? length ks). by destruct (i <? length ks).
Qed.
(** proof device, no counterpart in the code *)
Definition repl_items (i : nat) (el : green) (ks : list green) : list item :=
  imap (fun j x => if j =? i then (true, el) else (false, x)) ks.
Lemma owned_app l1 l2 : owned (l1 ++ l2) = owned l1 ++ owned l2.
Proof.
  induction l1 as [|[[] g] l1 IH]; [done| |]; simpl.
  - change (g :: owned (l1 ++ l2) = (g :: owned l1) ++ owned l2). by rewrite IH.
  - exact IH.
Qed.
Lemma owned_refs ks : owned (map (pair false) ks) = [].
Proof. induction ks; done. Qed.
Lemma repl_owned i el ks : owned (repl_items i el ks) = if i <? length ks then [el] else [].
Proof.
  unfold repl_items. rewrite (imap_replace (pair false) (true, el)). destruct (i <? length ks); [|apply owned_refs].
  rewrite owned_app, owned_refs. simpl. change (el :: owned (map (pair false) (drop (S i) ks)) = [el]).
  by rewrite owned_refs.
Qed.
Lemma repl_snd i el ks : map snd (repl_items i el ks) = <[i := el]> ks.
Proof.
  unfold repl_items. rewrite (imap_replace (pair false) (true, el)).
  destruct (Nat.ltb_spec i (length ks)) as [Hi|Hi].
  - rewrite map_app. simpl. rewrite !map_map. simpl. rewrite !map_id. by rewrite insert_take_drop.
  - rewrite map_map. simpl. rewrite map_id. by rewrite list_insert_ge.
Qed.
Lemma repl_isrc i el ks :
  map isrc (repl_items i el ks) = imap (fun j x => if j =? i then Own (gaddr el) else Ref x) (map gaddr ks).
Proof.
  rewrite (imap_replace Ref (Own (gaddr el))). unfold repl_items. rewrite (imap_replace (pair false) (true, el)), map_length.
  destruct (i <? length ks).
  - rewrite map_app. simpl. rewrite firstn_map, !map_map. f_equal. f_equal.
    rewrite <-map_map. change (drop (S i) (map gaddr ks)) with (skipn (S i) (map gaddr ks)).
    rewrite skipn_map, !map_map. done.
  - rewrite !map_map. done.
Qed.
Lemma gs_replace_ok al pr g i el h L :
  galloc_ok al -> gok (gmm h) (el :: L) -> stored (gmm h) g ->
  exists r h', gs_replace al pr (gaddr g) i (gaddr el) h = (r, h') /\
    built_or_leaked pr (gkind g) (<[i := el]> (kids g)) [el] L r (gmm h').
Proof.
  intros Hal Hi Hg. unfold gs_replace, mbind, gsm_bind. rewrite (gs_cell_ok h g Hg), ckind_of, cslots_of.
  rewrite <-repl_isrc, <-repl_snd, map_length.
  assert (HF : Forall (fun i => stored (gmm h) i.2) (repl_items i el (kids g))).
  { apply Forall_forall. intros x Hx. apply (elem_of_list_fmap_1 snd) in Hx.
    change (snd <$> repl_items i el (kids g)) with (map snd (repl_items i el (kids g))) in Hx. rewrite repl_snd in Hx.
    apply stored_inv in Hg as [_ K]. rewrite Forall_forall in K.
    apply elem_of_list_lookup in Hx as [j Hj]. destruct (decide (i = j)) as [->|Hne].
    - apply list_lookup_insert_Some in Hj as [(_&<-&_)|[? _]]; [|done].
      pose proof (gi_handles _ _ (proj1 Hi)) as HF. by apply Forall_cons in HF as [? _].
    - rewrite list_lookup_insert_ne in Hj by done. apply K. by eapply elem_of_list_lookup_2. }
  destruct (i <? length (kids g)) eqn:Ei.
  - destruct (gs_new_items al pr (gkind g) (repl_items i el (kids g)) h L Hal) as (r&h1&E1&Hb); [|done|].
    { rewrite repl_owned, Ei. done. }
    rewrite repl_owned, Ei in Hb. eauto.
  - destruct (gs_new_items al pr (gkind g) (repl_items i el (kids g)) h (el :: L) Hal) as (r&h1&E1&Hb); [|done|].
    { rewrite repl_owned, Ei. done. }
    unfold gs_finally. rewrite E1. destruct Hb as (a&Ha&Hb). rewrite repl_owned, Ei in Ha.
    destruct (green_new pr a (gkind g) (map snd (repl_items i el (kids g)))) as [g'|e] eqn:Eg; destruct Hb as [-> Hi1].
    + destruct (gs_drop_ok el h1 (g' :: L)) as (h2&E2&Hi2&_).
      { eapply gok_perm; [|done]. constructor. }
      exists (Ok a), h2. unfold mbind, gsm_bind. rewrite E2. split; [done|]. exists a. rewrite Eg. done.
    + destruct (gs_drop_ok el h1 (GNode a (gkind g) 0 (accepted pr 0 (map snd (repl_items i el (kids g)))).1 :: L)) as (h2&E2&Hi2&_).
      { eapply gok_perm; [|done]. constructor. }
      exists (Err Panic), h2. unfold mbind, gsm_bind. rewrite E2. split; [done|]. exists a. rewrite Eg. done.
Qed.

(** ** Reading *)
Lemma gs_read_rec_ok h g : forall d, gheight g <= d -> stored (gmm h) g -> gs_read_rec d (gaddr g) h = (Ok (erase g), h).
Proof.
  induction g as [a k tl cs IH|a k s] using green_ind'; intros d Hd Hg; (destruct d as [|d]; [simpl in Hd; lia|]);
    simpl; unfold mbind, gsm_bind.
  - pose proof (gs_cell_ok h _ Hg) as Hc. simpl in Hc. rewrite Hc. apply stored_inv in Hg as [_ K].
    unfold kids in K. simpl in K.
    rewrite map_map. simpl.
    assert (Hl : gs_map (gs_read_rec d) (map (λ c : N * green, gaddr c.2) cs) h = (Ok (map (λ c, erase c.2) cs), h)).
    { simpl in Hd. clear Hc. induction cs as [|c cs IHc]; simpl; [done|].
      apply Forall_cons in IH as [IHx IH]. simpl in K. apply Forall_cons in K as [Kx K]. simpl in Hd.
      unfold mbind, gsm_bind. rewrite IHx by (done || lia). rewrite IHc by (done || lia). done. }
    rewrite Hl. done.
  - pose proof (gs_cell_ok h _ Hg) as Hc. simpl in Hc. rewrite Hc. done.
Qed.
Lemma gs_read_ok h g : stored (gmm h) g -> gs_read (gaddr g) h = (Ok (erase g), h).
Proof.
  intros Hg. unfold gs_read. apply gs_read_rec_ok; [|done]. pose proof (gheight_dom _ _ Hg). lia.
Qed.
Lemma stored_reads m g : stored m g -> reads m (gaddr g) (erase g).
Proof.
  induction g as [a k tl cs IH|a k s] using green_ind'; intros [[n Hn] K]%stored_inv; simpl in *.
  - econstructor; [done|]. unfold kids in K. simpl in K. clear Hn.
    induction cs as [|c cs IHc]; simpl in *; [constructor|].
    apply Forall_cons in IH as [IHx IH]. apply Forall_cons in K as [Kx K]. constructor; auto.
  - by econstructor.
Qed.

(** ** Everything in memory is reachable *)
Lemma refs_inv m x : x ∈ refs m -> exists a n c, m !! a = Some (n, c) /\ x ∈ cslots c.
Proof.
  intros Hr. unfold refs in Hr. apply elem_of_list_In, in_concat in Hr as (l&Hl&Hx).
  apply in_map_iff in Hl as ([b [n c]]&<-&Hb). apply elem_of_list_In, elem_of_map_to_list in Hb. simpl in Hx.
  apply elem_of_list_In in Hx. eauto.
Qed.
Lemma ginv_reach m L a n c : ginv m L -> m !! a = Some (S n, c) -> exists g, g ∈ L /\ reaches m (gaddr g) a.
Proof.
  intros Hi Ha.
  enough (forall d a g, stored m g -> gaddr g = a -> size m - gheight g < d -> exists x, x ∈ L /\ reaches m (gaddr x) a) as H.
  { destruct (gi_stored _ _ Hi _ _ _ Ha) as (g&<-&Hg). apply (H (S (size m - gheight g)) _ g); [done|done|lia]. }
  clear a n c Ha. induction d as [|d IH]; intros a g Hg <- Hd; [lia|].
  pose proof Hg as [[n Hn] _]%stored_inv. pose proof (gi_count _ _ Hi _ _ _ Hn) as Hc.
  assert (gaddr g ∈ map gaddr L ++ refs m) as [Hin|Hin]%elem_of_app by (rewrite occ_pos; lia).
  - apply elem_of_map in Hin as (x&Hx&Hin). exists x. split; [done|]. rewrite <-Hx. constructor.
  - apply refs_inv in Hin as (b&nb&cb&Hb&Hin).
    destruct nb as [|nb].
    { rewrite (gi_dead _ _ Hi _ _ Hb) in Hin. by apply elem_of_nil in Hin. }
    destruct (gi_stored _ _ Hi _ _ _ Hb) as (y&<-&Hy).
    pose proof Hy as [[n2 Hn2] Ky]%stored_inv. rewrite Hn2 in Hb. injection Hb as _ <-.
    rewrite cslots_of in Hin. apply elem_of_map in Hin as (z&Hz'&Hin).
    assert (z = g) as ->. { rewrite Forall_forall in Ky. eapply stored_det; [by apply Ky|done|done]. }
    destruct (IH (gaddr y) y Hy eq_refl) as (x&Hx&Hr).
    { pose proof (gheight_kid y g Hin). pose proof (gheight_dom m y Hy). lia. }
    exists x. split; [done|]. clear -Hr Hn2 Hin.
    remember (gaddr y) as b eqn:Eb. induction Hr as [a|a n c x' b Ha Hx Hr IHr]; subst.
    + econstructor; [done| |constructor]. rewrite cslots_of. apply elem_of_map. eauto.
    + econstructor; [done|done|]. by apply IHr.
Qed.
Lemma gok_reach m L a : gok m L -> a ∈ dom m -> exists g, g ∈ L /\ reaches m (gaddr g) a.
Proof.
  intros [Hi Hz] [[[|n] c] Ha]%elem_of_dom; [by apply Hz in Ha|]. by eapply ginv_reach.
Qed.
Lemma gok_nil m : gok m [] -> m = ∅.
Proof.
  intros H. apply map_empty. intros a. destruct (m !! a) as [v|] eqn:E; [|done].
  destruct (gok_reach m [] a H) as (g&Hg&_); [by apply elem_of_dom; eauto|]. by apply elem_of_nil in Hg.
Qed.
Lemma pointers_to_refs m a : pointers_to m a = occ a (refs m).
Proof.
  unfold pointers_to, refs, map_fold. simpl. induction (map_to_list m) as [|[b [n c]] l IH]; [done|].
  simpl. rewrite occ_app, <-IH. done.
Qed.

(** ** Which constructions succeed *)
Lemma accepted_written pr els : forall o before,
  (pr = Checked -> o = blen (concat (map ttext before))) -> gbuildable pr before = true ->
  (pr = Checked -> forall e, e ∈ els -> gis_node e = true -> wfg e) ->
  gwritten pr before (map erase els) = before ++ map erase (map snd (accepted pr o els).1) /\
  gbuildable pr (before ++ map erase els) = match (accepted pr o els).2 with inl _ => true | inr _ => false end.
Proof.
  induction els as [|e els IH]; intros o before Ho Hb Hw; simpl.
  - by rewrite app_nil_r.
  - assert (Hstep : gbuildable pr (before ++ [erase e]) = true /\ (exists o', (l ← green_text_len e; add32 pr o l) = Ok o' /\
             (pr = Checked -> o' = blen (concat (map ttext (before ++ [erase e]))))) \/
           gbuildable pr (before ++ [erase e]) = false /\ (exists er, (l ← green_text_len e; add32 pr o l) = Err er) /\
             gbuildable pr (before ++ erase e :: map erase els) = false).
    { destruct pr; simpl in *.
      - rewrite !map_app, !concat_app, !blen_app. simpl. rewrite app_nil_r. rewrite <-Ho by done.
        assert (Hlen : green_text_len e = if (blen (ttext (erase e)) <=? u32_max)%N then Ok (blen (ttext (erase e))) else Err Panic).
        { destruct (gis_node e) eqn:Hn; [|by destruct e].
          assert (wfg e) as Hwe by (apply Hw; [done|left|done]). rewrite (wfg_text_len e Hwe).
          pose proof (wfg_bound e Hwe) as Hbd. unfold gtext in *. by apply N.leb_le in Hbd as ->. }
        rewrite Hlen. clear Hlen Hw. remember (ttext (erase e)) as tx eqn:Etx. clear Etx.
        destruct (N.leb_spec (blen tx) u32_max) as [Hs|Hs]; simpl.
        + unfold add32. destruct (N.leb_spec (o + blen tx) u32_max) as [Hl|Hl].
          * left. split; [done|]. eexists. split; [done|]. intros _. done.
          * right. split; [done|]. split; [by eexists|]. apply N.leb_gt. rewrite blen_app. lia.
        + right. split; [apply N.leb_gt; lia|]. split; [by eexists|]. apply N.leb_gt. rewrite blen_app. lia.
      - rewrite !forallb_app. simpl. rewrite Hb. destruct e as [a k tl cs|a k s]; simpl.
        + left. split; [done|]. unfold add32. destruct (_ <=? _)%N; eauto; eexists; split; done.
        + destruct (N.leb_spec (blen s) u32_max) as [Hs|Hs]; simpl.
          * left. split; [done|]. unfold add32. destruct (_ <=? _)%N; eexists; split; done.
          * right. split; [done|]. split; [by eexists|]. done. }
    destruct Hstep as [(Hbe&o'&Eo&Ho')|(Hbe&(er&Eo)&Hbad)]; rewrite Hbe, Eo.
    + destruct (IH o' (before ++ [erase e]) Ho' Hbe) as [H1 H2].
      { intros; apply Hw; [done|by right|done]. }
      rewrite H1. rewrite <-app_assoc in H2. simpl in H2. rewrite H2.
      destruct (accepted pr o' els) as [w r]. simpl. rewrite <-app_assoc. done.
    + simpl. rewrite app_nil_r. done.
Qed.

(** proof device, no counterpart in the code *)
Definition nodes_wf (pr : profile) (L : list green) : Prop := pr = Checked -> forall e, e ∈ L -> gis_node e = true -> wfg e.
(** constructor calls against the specification *)
Lemma built_spec pr k els own L r m env lk :
  nodes_wf pr els -> built_or_leaked pr k els own L r m ->
  (exists a g, r = Ok a /\ gaddr g = a /\ erase g = Node k (map erase els) /\ gok m (g :: L) /\ nodes_wf pr [g] /\
     s_new pr k (map erase els) env lk = Some (OHandle, (env ++ [Some (erase g)], lk))) \/
  (exists g, r = Err Panic /\ gok m (g :: L) /\
     s_new pr k (map erase els) env lk = Some (OPanic, (env ++ [None], erase g :: lk))).
Proof.
  intros Hw (a&_&Hb). destruct (accepted_written pr els 0 []) as [H1 H2]; [done|by destruct pr|done|].
  simpl in H1, H2. unfold s_new. rewrite H2, H1.
  pose proof (accepted_assign pr 0 els) as Hacc. unfold green_new in Hb.
  destruct (accepted pr 0 els) as [w [t|rest]]; simpl.
  - rewrite Hacc in Hb. simpl in Hb. destruct Hb as [-> Hi]. left. exists a, (GNode a k t w).
    assert (He : erase (GNode a k t w) = Node k (map erase els)).
    { simpl. f_equal. apply assign_offsets_Ok_fits in Hacc as [<- _]. by rewrite map_map. }
    split; [done|]. split; [done|]. split; [done|]. split; [done|]. split; [|by rewrite He].
    intros -> e ->%elem_of_list_singleton _.
    assert (Hn : green_new Checked a k els = Ok (GNode a k t w)) by (unfold green_new; by rewrite Hacc).
    pose proof (green_new_pending a k els (Hw eq_refl)) as Hp. destruct (_ <=? _)%N; [|congruence].
    destruct Hp as (g&Hg&?). congruence.
  - destruct Hacc as (Ea&_&_). rewrite Ea in Hb. simpl in Hb. destruct Hb as [-> Hi]. right.
    eexists. split; [done|]. split; [done|]. simpl. rewrite map_map. done.
Qed.

(** ** Programs *)
(** proof device, no counterpart in the code *)
Definition hs_of (genv : list (option green)) : list green := filter_map id genv.
(** [X]: further elements to which somebody else holds handles *)
Definition grelx (pr : profile) (X : list green) (env : list (option addr)) (st : sgst) (m : gmem) : Prop :=
  exists genv lkg, env = map (option_map gaddr) genv /\ st = (map (option_map erase) genv, map erase lkg) /\
    gok m (hs_of genv ++ lkg ++ X) /\ nodes_wf pr (hs_of genv).

Lemma map_insert_opt {A B} (f : A -> B) (l : list (option A)) h v :
  map (option_map f) (<[h := v]> l) = <[h := option_map f v]> (map (option_map f) l).
Proof. apply (list_fmap_insert (option_map f)). Qed.
Lemma g_peek_map {A B} (f : A -> B) h (l : list (option A)) :
  g_peek h (map (option_map f) l) = option_map f (g_peek h l).
Proof.
  unfold g_peek. change (map (option_map f) l) with (option_map f <$> l). rewrite list_lookup_fmap.
  by destruct (l !! h) as [[]|].
Qed.
Lemma g_move_map {A B} (f : A -> B) hs : forall (l : list (option A)),
  g_move hs (map (option_map f) l) =
  match g_move hs l with Some (xs, l') => Some (map f xs, map (option_map f) l') | None => None end.
Proof.
  induction hs as [|h hs IH]; intros l; simpl; [done|].
  change (map (option_map f) l !! h) with ((option_map f <$> l) !! h). rewrite list_lookup_fmap.
  destruct (l !! h) as [[x|]|]; simpl; [|done|done].
  change (<[h:=None]> (map (option_map f) l)) with (<[h := option_map f None]> (map (option_map f) l)).
  rewrite <-map_insert_opt, IH. destruct (g_move hs (<[h:=None]> l)) as [[xs l']|]; done.
Qed.
Lemma hs_of_app l1 l2 : hs_of (l1 ++ l2) = hs_of l1 ++ hs_of l2.
Proof. unfold hs_of. induction l1 as [|[x|] l1 IH]; simpl; [done| |done]. by rewrite IH. Qed.
Lemma hs_of_take genv h x : genv !! h = Some (Some x) -> hs_of genv ≡ₚ x :: hs_of (<[h := None]> genv).
Proof.
  revert h. induction genv as [|o genv IH]; intros h; [done|]. destruct h as [|h]; simpl.
  - intros [= ->]. done.
  - intros H. destruct o as [y|]; unfold hs_of in *; simpl; rewrite (IH h H); [constructor|done].
Qed.
Lemma hs_of_peek genv h x : g_peek h genv = Some x -> x ∈ hs_of genv.
Proof.
  unfold g_peek. destruct (genv !! h) as [[y|]|] eqn:E; simpl; [|done|done]. intros [= ->].
  rewrite (hs_of_take _ _ _ E). left.
Qed.
Lemma hs_of_move hs : forall genv gs genv', g_move hs genv = Some (gs, genv') -> hs_of genv ≡ₚ gs ++ hs_of genv'.
Proof.
  induction hs as [|h hs IH]; intros genv gs genv'; simpl; [by intros [= <- <-]|].
  destruct (genv !! h) as [[x|]|] eqn:E; [|done|done].
  destruct (g_move hs (<[h:=None]> genv)) as [[xs l']|] eqn:E2; [|done]. intros [= <- <-].
  rewrite (hs_of_take _ _ _ E). simpl. constructor. by apply IH.
Qed.
Lemma g_move_one {A} x (l : list (option A)) v : g_peek x l = Some v -> g_move [x] l = Some ([v], <[x := None]> l).
Proof. unfold g_peek. simpl. destruct (l !! x) as [[]|]; simpl; by intros [= ->]. Qed.
Lemma nodes_wf_sub pr L L' : (forall x, x ∈ L' -> x ∈ L) -> nodes_wf pr L -> nodes_wf pr L'.
Proof. intros H Hw Hp e He. apply Hw; [done|by apply H]. Qed.
Lemma nodes_wf_app pr L L' : nodes_wf pr L -> nodes_wf pr L' -> nodes_wf pr (L ++ L').
Proof. intros H1 H2 Hp e [?|?]%elem_of_app; [by apply H1|by apply H2]. Qed.
Lemma nodes_wf_kids pr g : nodes_wf pr [g] -> nodes_wf pr (kids g).
Proof.
  intros H Hp e He _. assert (Hg : gis_node g = true).
  { destruct g; [done|]. by apply elem_of_nil in He. }
  specialize (H Hp g ltac:(left) Hg). apply wfg_kids in H. rewrite Forall_forall in H. by apply H.
Qed.

Lemma gok_stored m L x : gok m L -> x ∈ L -> stored m x.
Proof. intros [Hi _] Hx. pose proof (gi_handles _ _ Hi) as HF. rewrite Forall_forall in HF. by apply HF. Qed.

(** a constructor call as a step *)
Lemma build_step pr X k els own genv lkg (m : gsm addr) st r st' b sst' :
  m st = (r, st') -> nodes_wf pr els -> nodes_wf pr (hs_of genv) ->
  built_or_leaked pr k els own (hs_of genv ++ lkg ++ X) r (gmm st') ->
  s_new pr k (map erase els) (map (option_map erase) genv) (map erase lkg) = Some (b, sst') ->
  exists env' st'', g_call m (map (option_map gaddr) genv) st = Ok (b, env', st'') /\ grelx pr X env' sst' (gmm st'').
Proof.
  intros Em Hw1 Hw2 Hb Hs. unfold g_call. rewrite Em.
  destruct (built_spec pr k els own _ r (gmm st') (map (option_map erase) genv) (map erase lkg) Hw1 Hb)
    as [(a&g&->&Ha&He&Hi&Hwg&Hn)|(g&->&Hi&Hn)]; rewrite Hn in Hs; injection Hs as <- <-; eexists _, st'; (split; [done|]).
  - exists (genv ++ [Some g]), lkg. rewrite !map_app. simpl. rewrite Ha. split; [done|]. split; [done|].
    rewrite hs_of_app. simpl. split.
    + eapply gok_perm; [|done]. rewrite <-app_assoc. simpl. by rewrite Permutation_middle.
    + by apply nodes_wf_app.
  - exists (genv ++ [None]), (g :: lkg). rewrite !map_app. simpl. split; [done|]. split; [done|].
    rewrite hs_of_app. simpl. rewrite app_nil_r. split; [|done].
    eapply gok_perm; [|done]. by rewrite Permutation_middle.
Qed.
Lemma panic_step pr X genv lkg (m : gsm addr) st st' :
  m st = (Err Panic, st') -> nodes_wf pr (hs_of genv) -> gok (gmm st') (hs_of genv ++ lkg ++ X) ->
  exists env' st'', g_call m (map (option_map gaddr) genv) st = Ok (OPanic, env', st'') /\
    grelx pr X env' (map (option_map erase) genv ++ [None], map erase lkg) (gmm st'').
Proof.
  intros Em Hw Hi. unfold g_call. rewrite Em. eexists _, st'. split; [done|].
  exists (genv ++ [None]), lkg. rewrite !map_app, hs_of_app. simpl. by rewrite app_nil_r.
Qed.
Lemma vec_splice_spec (cs : list green) lo hi els :
  vec_splice cs lo hi els =
  (let s := match lo with Included n => n | Excluded n => S n | Unbounded => 0 end in
   let e := match hi with Included n => S n | Excluded n => n | Unbounded => length cs end in
   if (s <=? e) && (e <=? length cs) then Ok (take s cs ++ els ++ drop e cs) else Err Panic).
Proof. done. Qed.
Lemma erase_s_children g k cs : s_children (erase g) = Some (k, cs) ->
  gis_node g = true /\ k = gkind g /\ cs = map erase (kids g).
Proof. destruct g; simpl; [|done]. intros [= <- <-]. unfold kids. simpl. by rewrite map_map. Qed.
Lemma nodes_wf_splice pr s e cs els : nodes_wf pr cs -> nodes_wf pr els -> nodes_wf pr (take s cs ++ els ++ drop e cs).
Proof.
  intros H1 H2. apply nodes_wf_app; [|apply nodes_wf_app; [done|]]; (eapply nodes_wf_sub; [|apply H1]); intros x.
  - apply elem_of_take_drop_1 || (intros (i&?&?)%elem_of_take; by eapply elem_of_list_lookup_2).
  - rewrite elem_of_list_lookup. intros [i Hi]. rewrite lookup_drop in Hi. by eapply elem_of_list_lookup_2.
Qed.

Section sim.
Context (al : nat -> gset addr -> addr) (pr : profile) (Hal : galloc_ok al).

(** splice-like calls, once the children are known *)
Lemma splice_step X g lo hi els genv lkg st b sst' k cs :
  gok (gmm st) (els ++ hs_of genv ++ lkg ++ X) -> nodes_wf pr (els ++ hs_of genv) ->
  g ∈ hs_of genv -> s_children (erase g) = Some (k, cs) ->
  (let s := match lo with Included n => n | Excluded n => S n | Unbounded => 0 end in
   let e := match hi with Included n => S n | Excluded n => n | Unbounded => length cs end in
   if (s <=? e) && (e <=? length cs)
   then s_new pr k (take s cs ++ map erase els ++ drop e cs) (map (option_map erase) genv) (map erase lkg)
   else Some (OPanic, (map (option_map erase) genv ++ [None], map erase lkg))) = Some (b, sst') ->
  exists env' st'', g_call (gs_splice al pr (gaddr g) lo hi (map gaddr els)) (map (option_map gaddr) genv) st = Ok (b, env', st'') /\
    grelx pr X env' sst' (gmm st'').
Proof using Hal.
  intros Hi Hw Hg Hch. apply erase_s_children in Hch as (Hn&->&->).
  assert (Hsg : stored (gmm st) g).
  { eapply gok_stored; [done|]. apply elem_of_app. right. apply elem_of_app. by left. }
  destruct (gs_splice_ok al pr g lo hi els st (hs_of genv ++ lkg ++ X) Hal Hi Hsg) as (r&st'&E&Hr).
  rewrite vec_splice_spec in Hr. cbv zeta. rewrite map_length. cbv zeta in Hr.
  set (s := match lo with Included n => n | Excluded n => S n | Unbounded => 0 end) in *.
  set (e := match hi with Included n => S n | Excluded n => n | Unbounded => length (kids g) end) in *.
  assert (Hwk : nodes_wf pr (kids g)).
  { apply nodes_wf_kids. eapply nodes_wf_sub; [|exact Hw]. intros x ->%elem_of_list_singleton. apply elem_of_app. by right. }
  destruct ((s <=? e) && (e <=? length (kids g))) eqn:Ec.
  - intros Hs. eapply build_step; [exact E| | |exact Hr|].
    + apply nodes_wf_splice; [done|]. eapply nodes_wf_sub; [|exact Hw]. intros x ?. apply elem_of_app. by left.
    + eapply nodes_wf_sub; [|exact Hw]. intros x ?. apply elem_of_app. by right.
    + rewrite !map_app. change (map erase (take s (kids g))) with (erase <$> take s (kids g)).
      change (map erase (drop e (kids g))) with (erase <$> drop e (kids g)). rewrite fmap_take, fmap_drop. exact Hs.
  - intros [= <- <-]. destruct Hr as [-> Hi']. eapply panic_step; [done| |done].
    eapply nodes_wf_sub; [|exact Hw]. intros x ?. apply elem_of_app. by right.
Qed.

Lemma g_step_okx X o env st sst b sst' :
  grelx pr X env sst (gmm st) -> s_gstep pr o sst = Some (b, sst') ->
  exists env' st', g_step al pr o env st = Ok (b, env', st') /\ grelx pr X env' sst' (gmm st').
Proof using Hal.
  intros (genv&lkg&->&->&Hi&Hw). destruct o as [k s|k hs|h|h|h i|h lo hi hs|h i x|h i|h i x|h]; cbn [s_gstep g_step].
  - (* token *)
    intros [= <- <-]. unfold g_call, gs_token.
    destruct (gs_alloc_gok al st (hs_of genv ++ lkg ++ X) (GTok (al (gck st) (dom (gmm st))) k s) Hal) as (st'&E&Hi'&_); [done|done|].
    simpl in E. rewrite E. eexists _, st'. split; [done|].
    exists (genv ++ [Some (GTok (al (gck st) (dom (gmm st))) k s)]), lkg. rewrite !map_app, hs_of_app. simpl.
    split; [done|]. split; [done|]. split.
    + eapply gok_perm; [|done]. rewrite <-app_assoc. simpl. by rewrite Permutation_middle.
    + apply nodes_wf_app; [done|]. intros _ e ->%elem_of_list_singleton. done.
  - (* node *)
    rewrite !g_move_map. destruct (g_move hs genv) as [[gs genv']|] eqn:Em; [|done].
    pose proof (hs_of_move _ _ _ _ Em) as Hp. intros Hs.
    destruct (gs_new_own al pr k gs st (hs_of genv' ++ lkg ++ X) Hal) as (r&st'&E&Hb).
    { eapply gok_perm; [|done]. by rewrite Hp, <-app_assoc. }
    eapply build_step; [exact E| | |exact Hb|exact Hs]; (eapply nodes_wf_sub; [|exact Hw]); intros y Hy; rewrite Hp;
      apply elem_of_app; auto.
  - (* clone *)
    rewrite !g_peek_map. destruct (g_peek h genv) as [g|] eqn:Eh; [|done]. cbn [option_map]. intros [= <- <-].
    pose proof (hs_of_peek _ _ _ Eh) as Hin.
    destruct (gs_clone_gok st (hs_of genv ++ lkg ++ X) g Hi) as (st'&E&Hi'&_).
    { eapply gok_stored; [done|]. apply elem_of_app. by left. }
    unfold g_call, mbind, gsm_bind. rewrite E. eexists _, st'. split; [done|].
    exists (genv ++ [Some g]), lkg. rewrite !map_app, hs_of_app. simpl. split; [done|]. split; [done|]. split.
    + eapply gok_perm; [|done]. rewrite <-app_assoc. simpl. by rewrite Permutation_middle.
    + apply nodes_wf_app; [done|]. eapply nodes_wf_sub; [|exact Hw]. by intros y ->%elem_of_list_singleton.
  - (* drop *)
    rewrite !g_peek_map. destruct (g_peek h genv) as [g|] eqn:Eh; [|done]. cbn [option_map]. intros [= <- <-].
    assert (Em : g_move [h] genv = Some ([g], <[h := None]> genv)) by by apply g_move_one.
    rewrite g_move_map, Em. pose proof (hs_of_move _ _ _ _ Em) as Hp.
    destruct (gs_drops_ok [g] st (hs_of (<[h := None]> genv) ++ lkg ++ X)) as (st'&E&Hi'&_).
    { eapply gok_perm; [|done]. by rewrite Hp, <-app_assoc. }
    rewrite E. eexists _, st'. split; [done|]. exists (<[h := None]> genv), lkg. rewrite !(map_insert_opt _ genv h None).
    split; [done|]. split; [done|]. split; [done|]. eapply nodes_wf_sub; [|exact Hw]. intros y Hy. rewrite Hp. by right.
  - (* child *)
    rewrite !g_peek_map. destruct (g_peek h genv) as [g|] eqn:Eh; [|done]. cbn [option_map mbind option_bind].
    pose proof (hs_of_peek _ _ _ Eh) as Hin.
    destruct (s_children (erase g)) as [[k cs]|] eqn:Ech; [|done]. intros [= <- <-].
    apply erase_s_children in Ech as (Hn&->&->).
    assert (Hsg : stored (gmm st) g). { eapply gok_stored; [done|]. apply elem_of_app. by left. }
    unfold gs_child, mbind, gsm_bind. rewrite (gs_cell_ok st g Hsg), cslots_of.
    change (map gaddr (kids g) !! i) with ((gaddr <$> kids g) !! i).
    change (map erase (kids g) !! i) with ((erase <$> kids g) !! i). rewrite !list_lookup_fmap.
    destruct (kids g !! i) as [x|] eqn:Ex; simpl.
    + destruct (gs_clone_gok st (hs_of genv ++ lkg ++ X) x Hi) as (st'&E&Hi'&_).
      { apply stored_inv in Hsg as [_ K]. rewrite Forall_forall in K. apply K. by eapply elem_of_list_lookup_2. }
      rewrite E. eexists _, st'. split; [done|]. exists (genv ++ [Some x]), lkg. rewrite !map_app, hs_of_app. simpl.
      split; [done|]. split; [done|]. split.
      * eapply gok_perm; [|done]. rewrite <-app_assoc. simpl. by rewrite Permutation_middle.
      * apply nodes_wf_app; [done|]. eapply nodes_wf_sub; [|apply (nodes_wf_kids pr g)].
        -- intros y ->%elem_of_list_singleton. by eapply elem_of_list_lookup_2.
        -- eapply nodes_wf_sub; [|exact Hw]. by intros y ->%elem_of_list_singleton.
    + eexists _, st. split; [done|]. exists (genv ++ [None]), lkg. rewrite !map_app, hs_of_app. simpl.
      by rewrite app_nil_r.
  - (* splice *)
    rewrite !g_move_map. destruct (g_move hs genv) as [[gs genv']|] eqn:Em; [|done].
    pose proof (hs_of_move _ _ _ _ Em) as Hp. rewrite !g_peek_map.
    destruct (g_peek h genv') as [g|] eqn:Eh; [|done]. cbn [option_map mbind option_bind].
    destruct (s_children (erase g)) as [[k cs]|] eqn:Ech; [|done].
    apply splice_step; [|by eapply nodes_wf_sub; [|exact Hw]; intros y Hy; rewrite Hp|by eapply hs_of_peek|done].
    eapply gok_perm; [|done]. by rewrite Hp, <-app_assoc.
  - (* insert *)
    rewrite (eq_sym (map_insert_opt erase genv x None) : <[x:=None]> (map (option_map erase) genv) = map (option_map erase) (<[x := None]> genv)).
    rewrite !g_peek_map.
    destruct (g_peek h (<[x := None]> genv)) as [g|] eqn:Eh; [|done]. cbn [option_map mbind option_bind].
    destruct (s_children (erase g)) as [[k cs]|] eqn:Ech; [|done].
    destruct (g_peek x genv) as [el|] eqn:Ex; [|done]. cbn [option_map].
    assert (Em : g_move [x] genv = Some ([el], <[x := None]> genv)) by by apply g_move_one.
    rewrite g_move_map, Em, g_peek_map, Eh. pose proof (hs_of_move _ _ _ _ Em) as Hp. cbn [option_map].
    intros Hs. unfold gs_insert.
    apply (splice_step X g (Included i) (Excluded i) [el] (<[x := None]> genv) lkg st b sst' k cs);
      [|by eapply nodes_wf_sub; [|exact Hw]; intros y Hy; rewrite Hp|by eapply hs_of_peek|done|].
    + eapply gok_perm; [|done]. by rewrite Hp, <-app_assoc.
    + cbv zeta. rewrite Nat.leb_refl, andb_true_l. exact Hs.
  - (* remove *)
    rewrite !g_peek_map. destruct (g_peek h genv) as [g|] eqn:Eh; [|done]. cbn [option_map mbind option_bind].
    destruct (s_children (erase g)) as [[k cs]|] eqn:Ech; [|done]. intros Hs. unfold gs_remove.
    apply (splice_step X g (Included i) (Included i) [] genv lkg st b sst' k cs); [done|done|by eapply hs_of_peek|done|].
    cbv zeta. assert (i <=? S i = true) as -> by (apply Nat.leb_le; lia). rewrite andb_true_l. exact Hs.
  - (* replace *)
    rewrite (eq_sym (map_insert_opt erase genv x None) : <[x:=None]> (map (option_map erase) genv) = map (option_map erase) (<[x := None]> genv)).
    rewrite !g_peek_map.
    destruct (g_peek h (<[x := None]> genv)) as [g|] eqn:Eh; [|done]. cbn [option_map mbind option_bind].
    destruct (s_children (erase g)) as [[k cs]|] eqn:Ech; [|done].
    destruct (g_peek x genv) as [el|] eqn:Ex; [|done]. cbn [option_map].
    assert (Em : g_move [x] genv = Some ([el], <[x := None]> genv)) by by apply g_move_one.
    rewrite g_move_map, Em, g_peek_map, Eh. pose proof (hs_of_move _ _ _ _ Em) as Hp. cbn [option_map map].
    intros Hs. apply erase_s_children in Ech as (Hn&->&->).
    pose proof (hs_of_peek _ _ _ Eh) as Hin.
    destruct (gs_replace_ok al pr g i el st (hs_of (<[x := None]> genv) ++ lkg ++ X) Hal) as (r&st'&E&Hb).
    { eapply gok_perm; [|done]. by rewrite Hp. }
    { eapply gok_stored; [done|]. apply elem_of_app. left. rewrite Hp. by right. }
    eapply build_step; [exact E| | |exact Hb|].
    + intros Hc e He Hne. apply elem_of_list_lookup in He as [j Hj]. destruct (decide (i = j)) as [->|Hij].
      * apply list_lookup_insert_Some in Hj as [(_&<-&_)|[? _]]; [|done]. apply Hw; [done| |done]. rewrite Hp. left.
      * rewrite list_lookup_insert_ne in Hj by done. apply elem_of_list_lookup_2 in Hj.
        apply (nodes_wf_kids pr g); [|done|done|done]. eapply nodes_wf_sub; [|exact Hw].
        intros y ->%elem_of_list_singleton. rewrite Hp. by right.
    + eapply nodes_wf_sub; [|exact Hw]. intros y Hy. rewrite Hp. by right.
    + change (map erase (<[i:=el]> (kids g))) with (erase <$> <[i:=el]> (kids g)). rewrite list_fmap_insert. exact Hs.
  - (* read *)
    rewrite !g_peek_map. destruct (g_peek h genv) as [g|] eqn:Eh; [|done]. cbn [option_map]. intros [= <- <-].
    rewrite (gs_read_ok st g).
    2:{ eapply gok_stored; [done|]. apply elem_of_app. left. by eapply hs_of_peek. }
    eexists _, st. split; [done|]. by exists genv, lkg.
Qed.
(** proof device, no counterpart in the code *)
Definition grel (pr : profile) (env : list (option addr)) (st : sgst) (m : gmem) : Prop :=
  exists genv lkg, env = map (option_map gaddr) genv /\ st = (map (option_map erase) genv, map erase lkg) /\
    gok m (hs_of genv ++ lkg) /\ nodes_wf pr (hs_of genv).
Lemma grelx_nil env st m : grelx pr [] env st m <-> grel pr env st m.
Proof using.
  unfold grelx, grel. split; intros (genv&lkg&H); exists genv, lkg; [rewrite app_nil_r in H|rewrite app_nil_r]; done.
Qed.
Lemma g_step_ok o env st sst b sst' :
  grel pr env sst (gmm st) -> s_gstep pr o sst = Some (b, sst') ->
  exists env' st', g_step al pr o env st = Ok (b, env', st') /\ grel pr env' sst' (gmm st').
Proof using Hal.
  intros Hr%grelx_nil Hs. destruct (g_step_okx [] o env st sst b sst' Hr Hs) as (env'&st'&?&?%grelx_nil). eauto.
Qed.
Lemma g_run_ok p : forall env st sst bs sst',
  grel pr env sst (gmm st) -> s_grun pr p sst = Some (bs, sst') ->
  exists env' st', g_run al pr p env st = Ok (bs, env', st') /\ grel pr env' sst' (gmm st').
Proof using Hal.
  induction p as [|o p IH]; intros env st sst bs sst' Hr; cbn [s_grun g_run].
  - intros [= <- <-]. eauto.
  - destruct (s_gstep pr o sst) as [[b sst1]|] eqn:E1; [|done].
    destruct (s_grun pr p sst1) as [[bs1 sst2]|] eqn:E2; [|done]. intros [= <- <-].
    destruct (g_step_ok o env st sst b sst1 Hr E1) as (env1&st1&G1&R1).
    destruct (IH env1 st1 sst1 bs1 sst2 R1 E2) as (env2&st2&G2&R2).
    exists env2, st2. rewrite G1. cbn. rewrite G2. done.
Qed.
End sim.

Lemma grel_init pr : grel pr [] ([], []) ∅.
Proof.
  exists [], []. split; [done|]. split; [done|]. split; [apply gok_empty|]. intros _ e He. by apply elem_of_nil in He.
Qed.

(** ** How deep drops nest *)
Lemma reaches_height m a b g y : reaches m a b -> stored m g -> gaddr g = a -> stored m y -> gaddr y = b -> gheight y <= gheight g.
Proof.
  intros Hr. revert g. induction Hr as [a|a n c x b Ha Hx Hr IH]; intros g Hg <- Hy Hb.
  - by rewrite (stored_det m y g).
  - pose proof Hg as [[n' Hn] K]%stored_inv. rewrite Hn in Ha. injection Ha as _ <-.
    rewrite cslots_of in Hx. apply elem_of_map in Hx as (z&->&Hz). rewrite Forall_forall in K.
    specialize (IH z (K z Hz) eq_refl Hy Hb). pose proof (gheight_kid g z Hz). lia.
Qed.
Lemma only_handle_unique m g : ginv m [g] -> m !! gaddr g = Some (1, gcell_of g).
Proof.
  intros Hi. pose proof (gi_handles _ _ Hi) as HF. apply Forall_cons in HF as [Hg _].
  pose proof Hg as [[n Hn] _]%stored_inv. rewrite Hn. do 3 f_equal.
  pose proof (gi_count _ _ Hi _ _ _ Hn) as Hc. simpl in Hc. rewrite occ_cons, decide_True in Hc by done.
  destruct (decide (gaddr g ∈ refs m)) as [Hin|Hin]; [|rewrite occ_pos in Hin; lia]. exfalso.
  apply refs_inv in Hin as (b&nb&cb&Hb&Hin). destruct nb as [|nb].
  { rewrite (gi_dead _ _ Hi _ _ Hb) in Hin. by apply elem_of_nil in Hin. }
  destruct (ginv_reach _ _ _ _ _ Hi Hb) as (x&->%elem_of_list_singleton&Hr).
  destruct (gi_stored _ _ Hi _ _ _ Hb) as (y&<-&Hy).
  pose proof (reaches_height _ _ _ _ _ Hr Hg eq_refl Hy eq_refl) as Hh.
  pose proof Hy as [[n2 Hn2] Ky]%stored_inv. rewrite Hn2 in Hb. injection Hb as _ <-.
  rewrite cslots_of in Hin. apply elem_of_map in Hin as (z&Hz'&Hin).
  assert (z = g) as ->. { rewrite Forall_forall in Ky. eapply stored_det; [by apply Ky|done|done]. }
  pose proof (gheight_kid y g Hin). lia.
Qed.
(** proof device, no counterpart in the code *)
Fixpoint is_chain (g : green) : bool :=
  match g with GNode _ _ _ [c] => is_chain c.2 | GNode _ _ _ _ => false | GTok _ _ _ => true end.
Lemma chain_too_deep d : forall g h, is_chain g = true -> d < gheight g -> ginv (gmm h) [g] ->
  fst (gs_drop_rec d (gaddr g) h) = Err Diverge.
Proof.
  induction d as [|d IH]; intros g h Hc Hd Hi; [done|].
  pose proof (only_handle_unique _ _ Hi) as Hn. simpl. rewrite Hn.
  pose proof (drop_last _ _ _ Hi Hn) as Hi1.
  destruct g as [a k tl cs|a k s]; [|simpl in Hd; lia].
  simpl in Hc. destruct cs as [|[o x] [|? ?]]; [done| |done]. simpl in Hd.
  unfold kids in Hi1. simpl in *. unfold mbind, gsm_bind, gs_set. simpl.
  specialize (IH x (GST (<[a:=(0, GCTok k [])]> (gmm h)) (gck h)) Hc ltac:(lia) Hi1).
  destruct (gs_drop_rec d (gaddr x) _) as [[]h']; simpl in IH; [done|]. simpl. done.
Qed.
