(** * Facts about the memory layout of green elements *)
From Verif Require Export Layout.
Local Unset Default Proof Using.

(** ** Rounding *)
Lemma round_up_mult x a : (a <> 0)%N -> (a | round_up x a)%N.
Proof. intros _. unfold round_up. apply N.divide_factor_r. Qed.
Lemma round_up_bounds x a : (a <> 0)%N -> (x <= round_up x a < x + a)%N.
Proof.
  intros Ha. unfold round_up. pose proof (N.div_mod (x + (a - 1)) a Ha) as E. pose proof (N.mod_lt (x + (a - 1)) a Ha).
  rewrite (N.mul_comm _ a). lia.
Qed.
Lemma mult_lt a x y : (a | x)%N -> (a | y)%N -> (x < y)%N -> (x + a <= y)%N.
Proof. intros [u ->] [v ->] H. assert (u < v)%N by nia. nia. Qed.
Lemma round_up_least x a m : (a <> 0)%N -> (a | m)%N -> (x <= m)%N -> (round_up x a <= m)%N.
Proof.
  intros Ha Hm Hx. pose proof (round_up_bounds x a Ha). pose proof (round_up_mult x a Ha).
  destruct (N.le_gt_cases (round_up x a) m) as [|Hlt]; [done|]. pose proof (mult_lt _ _ _ Hm H0 Hlt). lia.
Qed.
Lemma round_up_id x a : (a <> 0)%N -> (a | x)%N -> round_up x a = x.
Proof. intros Ha Hx. pose proof (round_up_bounds x a Ha). pose proof (round_up_least x a x Ha Hx). lia. Qed.
Lemma round_up_add x y a : (a <> 0)%N -> (a | x)%N -> round_up (x + y) a = (x + round_up y a)%N.
Proof.
  intros Ha Hx. pose proof (round_up_bounds y a Ha). apply N.le_antisymm.
  - apply round_up_least; [done| |lia]. apply N.divide_add_r; [done|by apply round_up_mult].
  - pose proof (round_up_bounds (x + y) a Ha). assert (exists z, round_up (x + y) a = x + z)%N as [z Ez]. { exists (round_up (x + y) a - x)%N. lia. }
    rewrite Ez. pose proof (round_up_mult (x + y) a Ha) as Hd. rewrite Ez in Hd. apply N.divide_add_cancel_r in Hd; [|done].
    pose proof (round_up_least y a z Ha Hd). lia.
Qed.

(** ** Powers of two *)
(** proof device, no counterpart in the code *)
Definition pow2 (a : N) : Prop := exists k, (a = 2 ^ k /\ k <= 61)%N.
Lemma pow2_nz a : pow2 a -> (a <> 0)%N.
Proof. intros (k&->&_). by apply N.pow_nonzero. Qed.
Lemma pow2_bound a : pow2 a -> (a <= 2 ^ 61)%N.
Proof. intros (k&->&Hk). by apply N.pow_le_mono_r. Qed.
Lemma pow2_div a b : pow2 a -> pow2 b -> (a <= b)%N -> (a | b)%N.
Proof.
  intros (k&->&_) (l&->&_) Hle. apply N.pow_le_mono_r_iff in Hle; [|lia]. exists (2 ^ (l - k))%N. rewrite <- N.pow_add_r. f_equal. lia.
Qed.
Lemma pow2_max a b : pow2 a -> pow2 b -> pow2 (N.max a b).
Proof. intros Ha Hb. by destruct (N.max_spec a b) as [[_ ->]|[_ ->]]. Qed.
Lemma pow2_max_l a b : pow2 a -> pow2 b -> (a | N.max a b)%N.
Proof. intros Ha Hb. apply pow2_div; [done|by apply pow2_max|lia]. Qed.
Lemma pow2_max_r a b : pow2 a -> pow2 b -> (b | N.max a b)%N.
Proof. intros Ha Hb. apply pow2_div; [done|by apply pow2_max|lia]. Qed.
Lemma pow2_8 : pow2 8.
Proof. exists 3%N. split; [done|lia]. Qed.
Lemma ty_ok_usize : ty_ok t_usize.
Proof. split; [exact pow2_8|by exists 1%N]. Qed.

(** the mask of arc.rs:340 *)
Lemma mask_round_down x k : (k <= 61)%N -> (x < 2 ^ 64)%N -> N.land x (N.lnot (2 ^ k - 1) 64) = (x / 2 ^ k * 2 ^ k)%N.
Proof.
  intros Hk Hx. destruct (N.eq_dec x 0) as [->|Hne].
  { rewrite N.land_0_l, N.div_0_l by (by apply N.pow_nonzero). done. }
  rewrite <- N.ldiff_land_low by (by apply N.log2_lt_pow2; lia).
  replace (2 ^ k - 1)%N with (N.ones k) by (rewrite N.ones_equiv; lia).
  by rewrite N.ldiff_ones_r, N.shiftr_div_pow2, N.shiftl_mul_pow2.
Qed.

(** ** Offsets *)
Section offsets.
  Variables (H T : ty).
  Hypotheses (HH : ty_ok H) (HT : ty_ok T).
  Notation D := (inner_data_off H T).
  Notation LO := (inner_data_off H T + hs_length_off H)%N.
  Notation SO := (inner_data_off H T + hs_slice_off H T)%N.
  Notation ALI := (inner_align H T).

  Lemma hs_align_pow2 : pow2 (hs_align H T).
  Proof. apply pow2_max; [exact (proj1 HH)|]. apply pow2_max; [exact pow2_8|exact (proj1 HT)]. Qed.
  Lemma inner_align_eq : ALI = hs_align H T.
  Proof. unfold inner_align, hs_align. simpl. lia. Qed.
  Lemma inner_align_pow2 : pow2 ALI.
  Proof. rewrite inner_align_eq. exact hs_align_pow2. Qed.
  Lemma alH_div : (al H | ALI)%N.
  Proof. rewrite inner_align_eq. apply pow2_max_l; [exact (proj1 HH)|]. apply pow2_max; [exact pow2_8|exact (proj1 HT)]. Qed.
  Lemma alT_div : (al T | ALI)%N.
  Proof.
    rewrite inner_align_eq. unfold hs_align. etransitivity; [apply (pow2_max_r (al t_usize)); [exact pow2_8|exact (proj1 HT)]|].
    apply pow2_max_r; [exact (proj1 HH)|]. apply pow2_max; [exact pow2_8|exact (proj1 HT)].
  Qed.
  Lemma al8_div : (8 | ALI)%N.
  Proof.
    rewrite inner_align_eq. unfold hs_align. etransitivity; [apply (pow2_max_l (al t_usize) (al T)); [exact pow2_8|exact (proj1 HT)]|].
    apply pow2_max_r; [exact (proj1 HH)|]. apply pow2_max; [exact pow2_8|exact (proj1 HT)].
  Qed.
  Lemma D_mult : (ALI | D)%N.
  Proof. rewrite inner_align_eq. apply round_up_mult, pow2_nz, hs_align_pow2. Qed.
  Lemma D_ge : (8 <= D)%N.
  Proof. apply round_up_bounds, pow2_nz, hs_align_pow2. Qed.
  Lemma LO_ge : (D + sz H <= LO)%N.
  Proof. pose proof (round_up_bounds (sz H) (al t_usize) ltac:(done)). unfold hs_length_off. lia. Qed.
  Lemma SO_ge : (LO + 8 <= SO)%N.
  Proof. pose proof (round_up_bounds (hs_length_off H + sz t_usize) (al T) (pow2_nz _ (proj1 HT))). unfold hs_slice_off. simpl in *. lia. Qed.
  Lemma LO_mult : (8 | LO)%N.
  Proof. apply N.divide_add_r; [etransitivity; [exact al8_div|exact D_mult]|]. by apply round_up_mult. Qed.
  Lemma SO_mult : (al T | SO)%N.
  Proof. apply N.divide_add_r; [etransitivity; [exact alT_div|exact D_mult]|]. apply round_up_mult, pow2_nz, HT. Qed.
  Lemma item_mult i : (al T | SO + sz T * i)%N.
  Proof. apply N.divide_add_r; [exact SO_mult|]. apply N.divide_mul_l, HT. Qed.

  (** the size the code computes is the size the compiler computes for the type with [n] items *)
  Lemma fat_size_eq n : inner_fat_size H T n = round_up (SO + sz T * n) ALI.
  Proof.
    unfold inner_fat_size, hs_fat_size. rewrite inner_align_eq. pose proof (pow2_nz _ hs_align_pow2) as Ha. pose proof D_mult as Hd. rewrite inner_align_eq in Hd.
    rewrite round_up_add by done. rewrite (round_up_id (round_up _ _)) by (try done; by apply round_up_mult).
    rewrite <- round_up_add by done. f_equal. lia.
  Qed.
  Lemma thin_size_le n : (inner_thin_size H T <= inner_fat_size H T n)%N.
  Proof.
    rewrite fat_size_eq. unfold inner_thin_size, hs_thin_size. rewrite inner_align_eq. pose proof (pow2_nz _ hs_align_pow2) as Ha.
    pose proof D_mult as Hd. rewrite inner_align_eq in Hd. rewrite <- round_up_add by done. rewrite (round_up_id (round_up _ _)) by (try done; by apply round_up_mult).
    apply round_up_least; [done|by apply round_up_mult|]. pose proof (round_up_bounds (SO + sz T * n) (hs_align H T) Ha). lia.
  Qed.

  (** the rounding of arc.rs:339-341 either gives the size or is caught by the assertion *)
  Lemma size_computed u : (u < 2 ^ 64)%N ->
    let s := N.land (wrapping_add u (ALI - 1)) (N.lnot (ALI - 1) 64) in
    ((u <= s)%N -> s = round_up u ALI) /\ (isize_max - (ALI - 1) < s \/ s < u \/ s = round_up u ALI)%N /\
    ((round_up u ALI <= isize_max - (ALI - 1))%N -> s = round_up u ALI).
  Proof.
    intros Hu s. destruct inner_align_pow2 as (k&Ek&Hk). pose proof (pow2_bound _ inner_align_pow2) as Hb. pose proof (pow2_nz _ inner_align_pow2) as Ha.
    unfold s, wrapping_add, usize_max1. rewrite Ek in *. rewrite mask_round_down by (try done; by apply N.mod_lt).
    destruct (N.lt_ge_cases (u + (2 ^ k - 1)) (2 ^ 64)) as [Hlt|Hge].
    - rewrite N.mod_small by done. unfold round_up. auto.
    - assert ((u + (2 ^ k - 1)) mod 2 ^ 64 = u + (2 ^ k - 1) - 2 ^ 64)%N as ->.
      { change (2 ^ 64)%N with (2 ^ 61 * 8)%N in *. symmetry. apply (N.mod_unique _ _ 1); lia. }
      pose proof (N.mul_div_le (u + (2 ^ k - 1) - 2 ^ 64) (2 ^ k) Ha) as Hle. rewrite N.mul_comm in Hle.
      assert ((u + (2 ^ k - 1) - 2 ^ 64) / 2 ^ k * 2 ^ k < u)%N. { change (2 ^ 64)%N with (2 ^ 61 * 8)%N in *. lia. }
      split; [lia|]. split; [lia|]. intros Hr. exfalso. pose proof (round_up_bounds u (2 ^ k) Ha). unfold isize_max in Hr.
      change (2 ^ 64)%N with (2 ^ 61 * 8)%N in *. change (2 ^ 63)%N with (2 ^ 61 * 4)%N in *. lia.
  Qed.
End offsets.

(** ** Writing the items *)
Section build.
  Context {A B : Type}.
  Variables (H T : ty).
  Hypotheses (HH : ty_ok H) (HT : ty_ok T).

  (** proof device, no counterpart in the code *)
  Fixpoint iw (off : N) (xs : list B) : list (wr A B) :=
    match xs with [] => [] | x :: xs' => W off T (CItem x) :: iw (off + sz T)%N xs' end.
  Lemma iw_app off xs ys : iw off (xs ++ ys) = iw off xs ++ iw (off + sz T * N.of_nat (length xs))%N ys.
  Proof.
    revert off. induction xs as [|x xs IH]; intros off; simpl.
    - f_equal. lia.
    - rewrite IH. do 3 f_equal. lia.
  Qed.
  Lemma iw_elem off xs w : w ∈ iw off xs -> (off <= w_off w)%N /\ w_ty w = T /\ (w_off w + sz T <= off + sz T * N.of_nat (length xs))%N.
  Proof.
    revert off. induction xs as [|x xs IH]; intros off; simpl; [by intros ?%elem_of_nil|].
    intros [->|Hin]%elem_of_cons; simpl; [split_and!; [lia|done|lia]|]. destruct (IH _ Hin) as (?&?&?). split_and!; [lia|done|lia].
  Qed.

  (** proof device, no counterpart in the code *)
  Definition with_mem (a : alloc A B) (m : list (wr A B)) : alloc A B := AL (al_addr a) (al_size a) (al_align a) m.
  Lemma mwrite_ok off t v (a : alloc A B) : (off + sz t <= al_size a)%N -> (al t | al_addr a + off)%N -> (al t <> 0)%N ->
    mwrite off t v a = Ok (with_mem a (al_mem a ++ [W off t v])).
  Proof.
    intros H1 H2 H3. unfold mwrite. apply N.mod_divide in H2; [|done]. rewrite H2. replace (off + sz t <=? al_size a)%N with true by lia. done.
  Qed.

  Lemma write_items_ok xs : forall (it : iter B) i cur (a : alloc A B),
    (forall j x, xs !! j = Some x -> it_next it (i + j) = Some x) ->
    (cur + sz T * N.of_nat (length xs) <= al_size a)%N -> (al T | al_addr a + cur)%N ->
    write_items T (length xs) it i cur a = Ok ((cur + sz T * N.of_nat (length xs))%N, with_mem a (al_mem a ++ iw cur xs)).
  Proof.
    induction xs as [|x xs IH]; intros it i cur a Hn Hs Hd; simpl.
    - rewrite app_nil_r. destruct a. unfold with_mem. simpl. repeat f_equal. lia.
    - pose proof (Hn 0 x eq_refl) as H0. rewrite Nat.add_0_r in H0. rewrite H0. cbn [unwrap mbind res_bind]. simpl in Hs.
      rewrite mwrite_ok by (try done; try lia; apply pow2_nz, HT). cbn [mbind res_bind].
      rewrite IH; simpl.
      + unfold with_mem. simpl. rewrite <- app_assoc. simpl. replace (cur + sz T + sz T * N.of_nat (length xs))%N with (cur + sz T * N.of_nat (S (length xs)))%N by lia. done.
      + intros j y Hj. replace (S (i + j)) with (i + S j) by lia. by apply Hn.
      + lia.
      + rewrite N.add_assoc. apply N.divide_add_r; [done|apply HT].
  Qed.
  Lemma write_items_panic k : forall (it : iter B) i cur (a : alloc A B),
    (cur + sz T * N.of_nat k <= al_size a)%N -> (al T | al_addr a + cur)%N ->
    (exists j, j < k /\ it_next it (i + j) = None) -> write_items T k it i cur a = Err Panic.
  Proof.
    induction k as [|k IH]; intros it i cur a Hs Hd (j&Hj&Hn); [lia|]. simpl.
    destruct (it_next it i) as [x|] eqn:Ex; [|done]. cbn [unwrap mbind res_bind].
    rewrite mwrite_ok by (try done; try lia; apply pow2_nz, HT). cbn [mbind res_bind]. apply IH; simpl.
    - lia.
    - rewrite N.add_assoc. apply N.divide_add_r; [done|apply HT].
    - destruct j as [|j]; [rewrite Nat.add_0_r in Hn; congruence|]. exists j. split; [lia|]. rewrite <- Hn. f_equal. lia.
  Qed.

  (** ** Reading back *)
  (** proof device, no counterpart in the code *)
  Definition apart (off : N) (t : ty) (w : wr A B) : Prop :=
    overlap off t w = false /\ ((w_off w =? off) && (sz (w_ty w) =? sz t))%N = false.
  Lemma mread_app (l1 l2 : list (wr A B)) off t v (a : alloc A B) : al_mem a = l1 ++ W off t v :: l2 -> (forall w, w ∈ l2 -> apart off t w) -> mread a off t = Ok v.
  Proof.
    intros E Hl. unfold mread. rewrite E, rev_app_distr. simpl. rewrite <- app_assoc. simpl. assert (forall w, w ∈ rev l2 -> apart off t w) as Hr.
    { intros w Hw. apply Hl. rewrite <- (rev_involutive l2). apply elem_of_list_In. apply -> in_rev. by apply elem_of_list_In. }
    revert Hr. generalize (rev l2). intros l. induction l as [|w l IH]; intros Hr; simpl.
    - by rewrite !N.eqb_refl.
    - destruct (Hr w (elem_of_list_here _ _)) as [-> ->]. apply IH. intros w' Hw'. apply Hr. by right.
  Qed.
  Lemma apart_after off t (w : wr A B) : (off + sz t <= w_off w)%N -> (sz (w_ty w) <> 0)%N -> apart off t w.
  Proof. intros H1 H2. unfold apart, overlap. split; [lia|]. destruct (N.eqb_spec (w_off w) off); [|done]. destruct (N.eqb_spec (sz (w_ty w)) (sz t)); [lia|done]. Qed.
  Lemma apart_before off t (w : wr A B) : (w_off w + sz (w_ty w) <= off)%N -> (sz t <> 0)%N -> apart off t w.
  Proof. intros H1 H2. unfold apart, overlap. split; [lia|]. destruct (N.eqb_spec (w_off w) off); [|done]. destruct (N.eqb_spec (sz (w_ty w)) (sz t)); [lia|done]. Qed.

  (** the memory of a finished allocation: what [from_header_and_iter] wrote, then any number of
      writes to the header *)
  Definition full_mem (h : A) (n : N) (xs : list B) (hdrs : list A) : list (wr A B) :=
    [W 0 t_usize (CCount 1); W (inner_data_off H T) H (CHeader h); W (inner_data_off H T + hs_length_off H)%N t_usize (CLength n)] ++
    iw (inner_data_off H T + hs_slice_off H T)%N xs ++ map (fun h => W (inner_data_off H T) H (CHeader h)) hdrs.
  Lemma hdrs_elem hdrs (w : wr A B) : w ∈ map (fun h => W (inner_data_off H T) H (CHeader h)) hdrs -> w_off w = inner_data_off H T /\ w_ty w = H.
  Proof. intros Hw. apply elem_of_list_In, in_map_iff in Hw as (x&<-&_). done. Qed.

  Section full.
    Variables (a : alloc A B) (h : A) (n : N) (xs : list B) (hdrs : list A).
    Hypotheses (Hmem : al_mem a = full_mem h n xs hdrs) (Hsz : (sz T <> 0)%N).
    Lemma full_hdr w : w ∈ map (fun h => W (A:=A) (B:=B) (inner_data_off H T) H (CHeader h)) hdrs ->
      apart 0 t_usize w /\ apart (inner_data_off H T + hs_length_off H) t_usize w /\ forall i, apart (inner_data_off H T + hs_slice_off H T + sz T * i) T w.
    Proof.
      intros Hw. apply hdrs_elem in Hw as [E1 E2]. pose proof (D_ge H T HH HT). pose proof (LO_ge H T). pose proof (SO_ge H T HT). split_and!.
      - unfold apart, overlap. rewrite E1, E2. split; [simpl; lia|]. destruct (N.eqb_spec (inner_data_off H T) 0); [lia|done].
      - apply apart_before; [rewrite E1, E2; lia|done].
      - intros i. apply apart_before; [rewrite E1, E2; lia|done].
    Qed.
    Lemma full_items w : w ∈ iw (inner_data_off H T + hs_slice_off H T)%N xs ->
      apart 0 t_usize w /\ apart (inner_data_off H T) H w /\ apart (inner_data_off H T + hs_length_off H) t_usize w.
    Proof.
      intros Hw. apply iw_elem in Hw as (E1&E2&_). pose proof (D_ge H T HH HT). pose proof (LO_ge H T). pose proof (SO_ge H T HT).
      split_and!; (apply apart_after; [simpl; lia|by rewrite E2]).
    Qed.
    Lemma full_count : mread a 0 t_usize = Ok (CCount 1).
    Proof.
      eapply (mread_app []); [exact Hmem|]. intros w Hw. rewrite !elem_of_cons in Hw. pose proof (D_ge H T HH HT). pose proof (LO_ge H T).
      destruct Hw as [->|[->|[Hw|Hw]%elem_of_app]].
      - unfold apart, overlap. simpl. split; [lia|]. destruct (N.eqb_spec (inner_data_off H T) 0); [lia|done].
      - apply apart_after; simpl; [lia|done].
      - by apply full_items.
      - by apply full_hdr.
    Qed.
    Lemma full_length : mread a (inner_data_off H T + hs_length_off H) t_usize = Ok (CLength n).
    Proof.
      eapply (mread_app [_; _]); [exact Hmem|]. intros w [Hw|Hw]%elem_of_app.
      - by apply full_items.
      - by apply full_hdr.
    Qed.
    Lemma full_header : mread a (inner_data_off H T) H = Ok (CHeader (List.last hdrs h)).
    Proof.
      pose proof (LO_ge H T). revert Hmem. destruct hdrs as [|y l _] using rev_ind; intros E; unfold full_mem in E.
      - eapply (mread_app [_]); [exact E|]. intros w. simpl. intros [->|[Hw|Hw%elem_of_nil]%elem_of_app]%elem_of_cons; [|by apply full_items|done].
        apply apart_after; simpl; [lia|done].
      - rewrite last_last. rewrite map_app, !app_assoc in E. eapply mread_app; [exact E|]. by intros w Hw%elem_of_nil.
    Qed.
    Lemma full_item i x : xs !! i = Some x -> mread a (inner_data_off H T + hs_slice_off H T + sz T * N.of_nat i) T = Ok (CItem x).
    Proof.
      intros Hi. pose proof Hmem as E. unfold full_mem in E. rewrite <- (take_drop_middle _ _ _ Hi), iw_app in E.
      pose proof (lookup_lt_Some _ _ _ Hi). rewrite take_length in E. replace (length xs `min` i)%nat with i in E by lia. replace (i `min` length xs)%nat with i in E by lia. simpl in E.
      eapply (mread_app ([_; _; _] ++ iw _ (take i xs)) (iw _ (drop (S i) xs) ++ _)); [rewrite E, <- !app_assoc; reflexivity|]. intros w [Hw|Hw]%elem_of_app.
      - apply iw_elem in Hw as (E1&E2&_). apply apart_after; [lia|by rewrite E2].
      - by apply full_hdr.
    Qed.
    Lemma read_items_ok : forall ys off, (forall i x, ys !! i = Some x -> mread a (off + sz T * N.of_nat i) T = Ok (CItem x)) -> read_items T (length ys) off a = Ok ys.
    Proof.
      induction ys as [|y ys IH]; intros off Hy; [done|]. simpl. pose proof (Hy 0 y eq_refl) as H0. rewrite N.mul_0_r, N.add_0_r in H0.
      rewrite H0. cbn [mbind res_bind]. rewrite IH; [done|]. intros i x Hx. rewrite <- (Hy (S i) x Hx). f_equal. lia.
    Qed.
    Lemma full_deref : n = N.of_nat (length xs) -> thin_deref H T a = Ok (List.last hdrs h, xs).
    Proof.
      intros En. unfold thin_deref. rewrite full_length. cbn [mbind res_bind]. rewrite full_header. cbn [mbind res_bind].
      rewrite En, Nat2N.id, read_items_ok; [done|]. intros i x Hx. by apply full_item.
    Qed.
  End full.

  (** ** The whole construction *)
  Variables (dbg : bool) (allocator : N -> N -> option N).
  (** the iterator gives exactly the items it announced (asked once more after the end unless
      it announced none) *)
  Definition honest (it : iter B) (xs : list B) : Prop :=
    it_len it = N.of_nat (length xs) /\ (forall i x, xs !! i = Some x -> it_next it i = Some x) /\
    it_next it (length xs) = None /\ (xs <> [] -> it_next it (S (length xs)) = None).
  (** proof device, no counterpart in the code *)
  Definition fits (n : N) : Prop := (inner_fat_size H T n <= isize_max - (inner_align H T - 1))%N.

  Lemma items_or_gap (it : iter B) k : (exists xs, length xs = k /\ forall i x, xs !! i = Some x -> it_next it i = Some x) \/ (exists j, j < k /\ it_next it j = None).
  Proof.
    induction k as [|k [(xs&<-&Hx)|(j&?&?)]]; [left; by exists []| |right; exists j; split; [lia|done]].
    destruct (it_next it (length xs)) as [x|] eqn:Ex; [|right; exists (length xs); split; [lia|done]].
    left. exists (xs ++ [x]). split; [rewrite app_length; simpl; lia|]. intros i y [Hy|[Hl [Hy ->]%list_lookup_singleton_Some]]%lookup_app_Some; [by apply Hx|].
    by replace i with (length xs) by lia.
  Qed.

  Lemma build_exact (h : A) (it : iter B) :
    (it_len it < 2 ^ 64)%N -> (inner_thin_size H T <= isize_max)%N ->
    (forall s a addr, allocator s a = Some addr -> (a | addr)%N) ->
    let n := it_len it in let size := inner_fat_size H T n in let align := inner_align H T in
    (sz T = 0%N -> from_header_and_iter dbg H T allocator h it = Err Panic) /\
    (sz T <> 0%N -> ~ fits n -> from_header_and_iter dbg H T allocator h it = Err Panic) /\
    (sz T <> 0%N -> fits n -> allocator size align = None -> from_header_and_iter dbg H T allocator h it = Ok None) /\
    (sz T <> 0%N -> fits n -> forall addr, allocator size align = Some addr ->
      (forall xs, honest it xs -> from_header_and_iter dbg H T allocator h it = Ok (Some (AL addr size align (full_mem h n xs [])))) /\
      ((forall xs, ~ honest it xs) -> from_header_and_iter dbg H T allocator h it = Err Panic)).
  Proof.
    intros Hn Hthin Hall n size align. unfold from_header_and_iter. fold n. fold align.
    set (SO := (inner_data_off H T + hs_slice_off H T)%N).
    assert (HSO : (SO <= isize_max)%N).
    { etransitivity; [|exact Hthin]. unfold inner_thin_size, hs_thin_size. pose proof (pow2_nz _ (inner_align_pow2 H T HH HT)) as Ha.
      pose proof (round_up_bounds (inner_data_off H T + round_up (hs_slice_off H T) (hs_align H T)) _ Ha). pose proof (round_up_bounds (hs_slice_off H T) _ (pow2_nz _ (hs_align_pow2 H T HH HT))). unfold SO. lia. }
    pose proof (fat_size_eq H T HH HT n) as Esize. fold size in Esize. fold SO in Esize. fold align in Esize. pose proof (inner_align_pow2 H T HH HT) as Hp2. fold align in Hp2.
    pose proof (pow2_nz _ Hp2) as Ha. pose proof (pow2_bound _ Hp2) as Hab. pose proof (round_up_bounds (SO + sz T * n) align Ha) as Hru.
    destruct (N.eqb_spec (sz T) 0) as [Ez|Ez]; cbn [negb rassert mbind res_bind].
    { split; [done|]. split_and!; done. }
    split; [done|]. unfold fits, checked_mul, checked_add. fold size. fold align.
    destruct (N.ltb_spec (sz T * n) usize_max1) as [Hm|Hm]; cbn [mbind res_bind].
    2:{ assert (~ (size <= isize_max - (align - 1))%N). { rewrite Esize. unfold usize_max1, isize_max in *. change (2 ^ 64)%N with (2 ^ 63 + 2 ^ 63)%N in *. lia. } split_and!; done. }
    destruct (N.ltb_spec (SO + sz T * n) usize_max1) as [Hs|Hs]; cbn [mbind res_bind].
    2:{ assert (~ (size <= isize_max - (align - 1))%N). { rewrite Esize. unfold usize_max1, isize_max in *. change (2 ^ 64)%N with (2 ^ 63 + 2 ^ 63)%N in *. lia. } split_and!; done. }
    destruct (size_computed H T HH HT (SO + sz T * n) Hs) as (S1&S2&S3). fold align in S1, S2, S3. rewrite <- Esize in S1, S2, S3.
    set (s := N.land _ _) in *.
    destruct (N.leb_spec (SO + sz T * n) s) as [Hle|Hlt]; cbn [rassert mbind res_bind].
    2:{ assert (~ (size <= isize_max - (align - 1))%N). { intros Hf. specialize (S3 Hf). lia. } split_and!; done. }
    specialize (S1 Hle). rewrite S1. clear S1 S2 S3 Hle. clearbody s. clear s. unfold layout_new.
    destruct (N.leb_spec size (isize_max - (align - 1))) as [Hfit|Hfit]; cbn [mbind res_bind]; cycle 1.
    { split_and!; try done; intros; lia. }
    split; [intros; lia|]. split; [intros _ _ ->; done|]. intros _ _ addr Haddr. rewrite Haddr.
    specialize (Hall _ _ _ Haddr). pose proof (D_ge H T HH HT) as HDg. pose proof (LO_ge H T) as HLg. pose proof (SO_ge H T HT) as HSg. fold SO in HSg.
    pose proof (D_mult H T HH HT) as HDm. fold align in HDm. pose proof (LO_mult H T HH HT) as HLm. pose proof (SO_mult H T HH HT) as HSm. fold SO in HSm.
    pose proof (alH_div H T HH HT) as HaH. pose proof (alT_div H T HH HT) as HaT. pose proof (al8_div H T HH HT) as Ha8. fold align in HaH, HaT, Ha8.
    rewrite mwrite_ok; [|simpl; lia|simpl; rewrite N.add_0_r; by etransitivity|done]. cbn [mbind res_bind].
    rewrite mwrite_ok; [|simpl; lia|simpl; apply N.divide_add_r; by etransitivity|apply pow2_nz, HH]. cbn [mbind res_bind].
    rewrite mwrite_ok; [|simpl; lia|simpl; apply N.divide_add_r; [by etransitivity|done]|done]. cbn [mbind res_bind].
    unfold with_mem. cbn [al_addr al_size al_align al_mem app].
    set (a0 := AL addr size align _).
    assert (forall xs, honest it xs -> N.to_nat n = length xs) as Hlen. { intros xs (E&_). unfold n. rewrite E. by rewrite Nat2N.id. }
    destruct (N.eqb_spec n 0) as [En|En]; cbn [mbind res_bind].
    - split.
      + intros xs Hx. specialize (Hlen _ Hx). destruct Hx as (E&_&E2&_). assert (xs = []) as -> by (apply nil_length_inv; lia). simpl in E2. rewrite E2. done.
      + intros Hno. destruct (it_next it 0) as [x|] eqn:E0; [done|]. destruct (Hno []). split_and!; [simpl; fold n; lia|done|done|done].
    - replace (negb dbg || (SO =? SO)%N) with true by (rewrite N.eqb_refl; by destruct dbg). cbn [rassert mbind res_bind].
      assert (al T | al_addr a0 + SO)%N as Hd0. { simpl. apply N.divide_add_r; [by etransitivity|done]. }
      split.
      + intros xs Hx. rewrite (Hlen _ Hx). pose proof Hx as (E&E1&E2&E3). fold n in E.
        rewrite write_items_ok; [|done|simpl; rewrite <- E; lia|done]. cbn [mbind res_bind]. rewrite E2. cbn [rassert mbind res_bind].
        rewrite <- E. replace (negb dbg || (SO + sz T * n =? SO + sz T * n)%N) with true by (rewrite N.eqb_refl; by destruct dbg). cbn [rassert mbind res_bind].
        rewrite E3 by (intros ->; simpl in E; lia). cbn [rassert mbind res_bind]. unfold with_mem, full_mem. simpl. by rewrite app_nil_r.
      + intros Hno. destruct (items_or_gap it (N.to_nat n)) as [(xs&El&Hx)|Hg]; [|rewrite write_items_panic; [done|simpl; rewrite N2Nat.id; lia|done|done]].
        rewrite <- El. rewrite write_items_ok; [|done|simpl; rewrite El, N2Nat.id; lia|done]. cbn [mbind res_bind].
        destruct (it_next it (length xs)) as [x|] eqn:E2; [done|]. cbn [rassert mbind res_bind]. rewrite El, N2Nat.id.
        replace (negb dbg || (SO + sz T * n =? SO + sz T * n)%N) with true by (rewrite N.eqb_refl; by destruct dbg). cbn [rassert mbind res_bind].
        rewrite <- El. destruct (it_next it (S (length xs))) as [x|] eqn:E3; [done|]. destruct (Hno xs). split_and!; try done. fold n. lia.
  Qed.
End build.

(** proof device, no counterpart in the code *)
Definition alloc_ok (allocator : N -> N -> option N) : Prop := forall s a addr, allocator s a = Some addr -> (a | addr)%N.

(** the setting of the theorems *)
Definition setting (H T : ty) (allocator : N -> N -> option N) {B} (it : iter B) : Prop :=
  ty_ok H /\ ty_ok T /\ alloc_ok allocator /\ (inner_thin_size H T <= isize_max)%N /\ (it_len it < 2 ^ 64)%N.

Lemma built {A B} dbg H T allocator (h : A) (it : iter B) a : setting H T allocator it -> from_header_and_iter dbg H T allocator h it = Ok (Some a) ->
  exists xs addr, honest it xs /\ sz T <> 0%N /\ fits H T (it_len it) /\ allocator (inner_fat_size H T (it_len it)) (inner_align H T) = Some addr /\
    a = AL addr (inner_fat_size H T (it_len it)) (inner_align H T) (full_mem H T h (it_len it) xs []).
Proof.
  intros (HH&HT&Hall&Hth&Hn) Hok. destruct (build_exact H T HH HT dbg allocator h it Hn Hth Hall) as (B1&B2&B3&B4).
  destruct (decide (sz T = 0%N)) as [E|E]; [rewrite (B1 E) in Hok; done|]. destruct (decide (inner_fat_size H T (it_len it) <= isize_max - (inner_align H T - 1))%N) as [Hf|Hf]; [|rewrite (B2 E Hf) in Hok; done].
  destruct (allocator (inner_fat_size H T (it_len it)) (inner_align H T)) as [addr|] eqn:Ea; [|rewrite (B3 E Hf eq_refl) in Hok; done].
  destruct (B4 E Hf addr eq_refl) as [B5 B6]. destruct (items_or_gap it (N.to_nat (it_len it))) as [(xs&El&Hx)|(j&Hj&Hg)].
  - destruct (it_next it (length xs)) as [x|] eqn:E1.
    { rewrite B6 in Hok; [done|]. intros ys (Ey&Y1&Y2&Y3). assert (length ys = length xs) as Ely by lia. rewrite Ely in Y2. congruence. }
    assert (honest it xs \/ (xs <> [] /\ it_next it (S (length xs)) <> None)) as [Hh|[Hne Hs]].
    { destruct xs as [|x0 xs']; [left; split_and!; [simpl in *; lia|done|done|done]|].
      destruct (it_next it (S (length (x0 :: xs')))) eqn:E2; [right; split; [done|congruence]|]. left. split_and!; [lia|done|done|done]. }
    + rewrite (B5 _ Hh) in Hok. injection Hok as <-. exists xs, addr. by split_and!.
    + rewrite B6 in Hok; [done|]. intros ys (Ey&Y1&Y2&Y3). assert (length ys = length xs) as Ely by lia. rewrite Ely in Y3. apply Hs, Y3. intros ->. destruct xs; done.
  - rewrite B6 in Hok; [done|]. intros ys (Ey&Y1&Y2&Y3). destruct (lookup_lt_is_Some_2 ys j) as [y Hy]; [lia|]. rewrite (Y1 _ _ Hy) in Hg. done.
Qed.

