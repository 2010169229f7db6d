(** * Theorems: allocation layout of green elements (C49)

    [H], [T]: size and alignment of the header and of an item, any that Rust types can
    have ([ty_ok]; and the type without items must itself be within the size limit of
    types).  [allocator]: any function giving addresses with the alignment asked for.
    [dbg]: debug assertions on or off.  [it]: any iterator, also one that misreports its
    length. *)
From Verif Require Import LayoutFacts.

(** green nodes: [GreenNodeHead] = text_len: u32, kind: u16; [GreenChild] = tag, u32, pointer *)
Definition node_head : ty := TY 8 4.
(** example *)
Definition green_child : ty := TY 16 8.
(** green tokens: [GreenTokenHead] = kind: u16; bytes *)
Definition token_head : ty := TY 2 2.
(** example *)
Definition byte : ty := TY 1 1.
(** example *)
Definition list_iter {B} (xs : list B) : iter B := IT (N.of_nat (length xs)) (fun i => xs !! i).
(** an allocator that always gives the same address, and fails above 1 MiB *)
Definition demo_alloc (s a : N) : option N := if (s <=? 2 ^ 20)%N then Some (a * 2 ^ 10)%N else None.
(** example *)
Definition token_abc : option (alloc N N) :=
  match from_header_and_iter true token_head byte demo_alloc 7%N (list_iter [97; 98; 99]%N) with Ok o => o | _ => None end.
(** example *)
Definition node_2 : option (alloc N N) :=
  match from_header_and_iter true node_head green_child demo_alloc 7%N (list_iter [1001; 1002]%N) with Ok o => o | _ => None end.
Lemma ty_node_head : ty_ok node_head.
Proof. split; [exists 2%N; split; [done|lia]|by exists 2%N]. Qed.
Lemma ty_green_child : ty_ok green_child.
Proof. split; [exists 3%N; split; [done|lia]|by exists 2%N]. Qed.
Lemma ty_token_head : ty_ok token_head.
Proof. split; [exists 1%N; split; [done|lia]|by exists 1%N]. Qed.
Lemma ty_byte : ty_ok byte.
Proof. split; [exists 0%N; split; [done|lia]|by exists 1%N]. Qed.

Example setting_node : setting node_head green_child demo_alloc (list_iter [1001; 1002]%N).
Proof.
  split_and!; [exact ty_node_head|exact ty_green_child| |by vm_compute|by vm_compute].
  intros s a addr. unfold demo_alloc. destruct (s <=? 2 ^ 20)%N; [|done]. intros [= <-]. by exists (2 ^ 10)%N; rewrite N.mul_comm.
Qed.
Example setting_token : setting token_head byte demo_alloc (list_iter [97; 98; 99]%N).
Proof.
  split_and!; [exact ty_token_head|exact ty_byte| |by vm_compute|by vm_compute].
  intros s a addr. unfold demo_alloc. destruct (s <=? 2 ^ 20)%N; [|done]. intros [= <-]. by exists (2 ^ 10)%N; rewrite N.mul_comm.
Qed.

(** ** C49 *)
Section c49.
  Context {A B : Type}.
  Implicit Types (a : alloc A B) (it : iter B).

  (** never an access outside the allocation or at a misaligned address; always an answer *)
  Theorem c49_no_ub dbg H T allocator (h : A) it : setting H T allocator it ->
    from_header_and_iter dbg H T allocator h it = Err Panic \/ is_ok (from_header_and_iter dbg H T allocator h it).
  Proof.
    intros (HH&HT&Hall&Hth&Hn). destruct (build_exact H T HH HT dbg allocator h it Hn Hth Hall) as (B1&B2&B3&B4).
    destruct (from_header_and_iter dbg H T allocator h it) as [o|e] eqn:E; [right; by eexists|left].
    destruct (decide (sz T = 0%N)) as [Ez|Ez]; [by rewrite B1|]. destruct (decide (inner_fat_size H T (it_len it) <= isize_max - (inner_align H T - 1))%N) as [Hf|Hf]; [|by rewrite B2].
    destruct (allocator (inner_fat_size H T (it_len it)) (inner_align H T)) as [addr|] eqn:Ea; [|by specialize (B3 Ez Hf eq_refl)].
    destruct (B4 Ez Hf addr eq_refl) as [B5 B6]. apply B6. intros xs Hx. by specialize (B5 xs Hx).
  Qed.

  (** overflow is detected: whenever the space really needed (in unbounded arithmetic) exceeds
      the limit for allocations it panics, before allocating *)
  Theorem c49_overflow_panics dbg H T allocator (h : A) it : setting H T allocator it -> sz T <> 0%N ->
    (isize_max < inner_data_off H T + hs_slice_off H T + sz T * it_len it)%N -> from_header_and_iter dbg H T allocator h it = Err Panic.
  Proof.
    intros (HH&HT&Hall&Hth&Hn) Hz Hbig. destruct (build_exact H T HH HT dbg allocator h it Hn Hth Hall) as (B1&B2&B3&B4).
    apply B2; [done|]. unfold fits. rewrite fat_size_eq by done. pose proof (round_up_bounds (inner_data_off H T + hs_slice_off H T + sz T * it_len it) (inner_align H T) (pow2_nz _ (inner_align_pow2 H T HH HT))). lia.
  Qed.
  (** ... and it does not panic for lack of space when there is enough *)
  Theorem c49_enough_space dbg H T allocator (h : A) it xs : setting H T allocator it -> sz T <> 0%N -> honest it xs ->
    (inner_data_off H T + hs_slice_off H T + sz T * it_len it + 2 * inner_align H T <= isize_max)%N -> is_ok (from_header_and_iter dbg H T allocator h it).
  Proof.
    intros (HH&HT&Hall&Hth&Hn) Hz Hx Hsmall. destruct (build_exact H T HH HT dbg allocator h it Hn Hth Hall) as (B1&B2&B3&B4).
    assert (fits H T (it_len it)) as Hf.
    { unfold fits. rewrite fat_size_eq by done. pose proof (round_up_bounds (inner_data_off H T + hs_slice_off H T + sz T * it_len it) (inner_align H T) (pow2_nz _ (inner_align_pow2 H T HH HT))). lia. }
    destruct (allocator (inner_fat_size H T (it_len it)) (inner_align H T)) as [addr|] eqn:Ea; [|rewrite (B3 Hz Hf eq_refl); by eexists].
    destruct (B4 Hz Hf addr eq_refl) as [B5 _]. rewrite (B5 _ Hx). by eexists.
  Qed.

  (** the allocation holds count, header, length and every item: each inside it, at an address
      with the alignment of its type, no two overlapping; its size is a multiple of its
      alignment and within the limit *)
  Theorem c49_fields dbg H T allocator (h : A) it a : setting H T allocator it -> from_header_and_iter dbg H T allocator h it = Ok (Some a) ->
    length (al_mem a) = 3 + N.to_nat (it_len it) /\
    (forall i w, al_mem a !! i = Some w -> (w_off w + sz (w_ty w) <= al_size a)%N /\ (al (w_ty w) | al_addr a + w_off w)%N) /\
    (forall i j w w', al_mem a !! i = Some w -> al_mem a !! j = Some w' -> i < j -> (w_off w + sz (w_ty w) <= w_off w')%N) /\
    (al_align a | al_size a)%N /\ (al_align a | al_addr a)%N /\ (al_size a <= isize_max)%N.
  Proof.
    intros Hs Hok. destruct (built _ _ _ _ _ _ _ Hs Hok) as (xs&addr&Hh&Hz&Hf&Ha&->). destruct Hs as (HH&HT&Hall&Hth&Hn). cbn [al_mem al_size al_align al_addr].
    specialize (Hall _ _ _ Ha). pose proof (D_ge H T HH HT) as HDg. pose proof (LO_ge H T) as HLg. pose proof (SO_ge H T HT) as HSg.
    pose proof (D_mult H T HH HT) as HDm. pose proof (LO_mult H T HH HT) as HLm.
    pose proof (alH_div H T HH HT) as HaH. pose proof (alT_div H T HH HT) as HaT. pose proof (al8_div H T HH HT) as Ha8.
    destruct Hh as (El&_). unfold full_mem. cbn [map]. rewrite app_nil_r. rewrite fat_size_eq by done. set (SO := (inner_data_off H T + hs_slice_off H T)%N) in *.
    pose proof (round_up_bounds (SO + sz T * it_len it) (inner_align H T) (pow2_nz _ (inner_align_pow2 H T HH HT))) as Hr.
    assert (Hiw : forall i w, iw (A:=A) T SO xs !! i = Some w -> w_off w = (SO + sz T * N.of_nat i)%N /\ w_ty w = T /\ i < length xs).
    { clear. generalize SO. induction xs as [|x xs IH]; intros s0 [|i] w; simpl; try done; [intros [= <-]; simpl; split_and!; [lia|done|lia]|].
      intros Hi. destruct (IH _ _ _ Hi) as (->&->&?). split_and!; [lia|done|lia]. }
    split_and!.
    - rewrite app_length. simpl. do 3 f_equal. rewrite El, Nat2N.id. clear. generalize SO. induction xs as [|x xs IH]; intros s0; [done|]. simpl. by rewrite IH.
    - intros [|[|[|i]]] w Hw; simpl in Hw; [injection Hw as <-..|]; simpl.
      + split; [lia|]. rewrite N.add_0_r. by etransitivity.
      + split; [lia|]. apply N.divide_add_r; by etransitivity.
      + split; [lia|]. apply N.divide_add_r; [by etransitivity|done].
      + destruct (Hiw _ _ Hw) as (->&->&?). split; [nia|]. apply N.divide_add_r; [by etransitivity|]. by apply item_mult.
    - intros [|[|[|i]]] [|[|[|j]]] w w' Hw Hw' Hlt; try lia; simpl in Hw, Hw'.
      all: try (injection Hw as <-); try (injection Hw' as <-); simpl; try lia.
      all: destruct (Hiw _ _ Hw') as (E1'&E2'&?); rewrite ?E1'; try lia.
      destruct (Hiw _ _ Hw) as (E1&E2&?). rewrite E1, E2. nia.
    - by apply round_up_mult, pow2_nz, inner_align_pow2.
    - done.
    - unfold fits in Hf. rewrite fat_size_eq in Hf by done. fold SO in Hf. lia.
  Qed.

  (** what is read through the handle is what was put in: the header, the items the iterator
      gave in order, a count of one *)
  Theorem c49_read_back dbg H T allocator (h : A) it a : setting H T allocator it -> from_header_and_iter dbg H T allocator h it = Ok (Some a) ->
    exists xs, thin_deref H T a = Ok (h, xs) /\ read_count a = Ok 1%N /\
      it_len it = N.of_nat (length xs) /\ (forall i x, xs !! i = Some x -> it_next it i = Some x) /\ it_next it (length xs) = None.
  Proof.
    intros Hs Hok. destruct (built _ _ _ _ _ _ _ Hs Hok) as (xs&addr&Hh&Hz&Hf&Ha&->). destruct Hs as (HH&HT&Hall&Hth&Hn). exists xs.
    destruct Hh as (El&E1&E2&E3). split_and!; try done.
    - by rewrite (full_deref H T HH HT _ h (it_len it) xs []).
    - unfold read_count. by rewrite (full_count H T HH HT _ h (it_len it) xs []).
  Qed.

  (** writing the header later (the text length of a node) changes nothing else *)
  Theorem c49_set_header dbg H T allocator (h h' : A) it a : setting H T allocator it -> from_header_and_iter dbg H T allocator h it = Ok (Some a) ->
    exists xs a', thin_deref H T a = Ok (h, xs) /\ set_header H T h' a = Ok a' /\ thin_deref H T a' = Ok (h', xs) /\ read_count a' = Ok 1%N /\
      dealloc_layout H T a' = dealloc_layout H T a.
  Proof.
    intros Hs Hok. pose proof (c49_fields _ _ _ _ _ _ _ Hs Hok) as (_&Hin&_). destruct (built _ _ _ _ _ _ _ Hs Hok) as (xs&addr&Hh&Hz&Hf&Ha&->). destruct Hs as (HH&HT&Hall&Hth&Hn).
    destruct (Hin 1 _ eq_refl) as [H1 H2]. simpl in H1, H2. destruct Hh as (El&_). eexists xs, _.
    split; [by rewrite (full_deref H T HH HT _ h (it_len it) xs [])|]. split.
    { unfold set_header. apply mwrite_ok; [done|done|apply pow2_nz, HH]. }
    assert (forall m, m = full_mem H T h (it_len it) xs [] ++ [W (inner_data_off H T) H (CHeader h')] -> m = full_mem H T h (it_len it) xs [h']) as Hm.
    { intros m ->. unfold full_mem. simpl. by rewrite app_nil_r. }
    split_and!.
    - by rewrite (full_deref H T HH HT _ h (it_len it) xs [h']); [|apply Hm|..].
    - unfold read_count. by rewrite (full_count H T HH HT _ h (it_len it) xs [h']); [|apply Hm|..].
    - unfold dealloc_layout. rewrite (full_length H T HH HT _ h (it_len it) xs [h']); [|by apply Hm|done]. by rewrite (full_length H T HH HT _ h (it_len it) xs []).
  Qed.

  (** the memory is freed with the layout it was allocated with *)
  Theorem c49_dealloc dbg H T allocator (h : A) it a : setting H T allocator it -> from_header_and_iter dbg H T allocator h it = Ok (Some a) ->
    dealloc_layout H T a = Ok (al_size a, al_align a).
  Proof.
    intros Hs Hok. destruct (built _ _ _ _ _ _ _ Hs Hok) as (xs&addr&Hh&Hz&Hf&Ha&->). destruct Hs as (HH&HT&Hall&Hth&Hn).
    unfold dealloc_layout. by rewrite (full_length H T HH HT _ h (it_len it) xs []).
  Qed.

  (** an iterator that gives more or fewer items than it announced is caught: if construction
      succeeds the items read are all it gave (above); otherwise it panics *)
  Theorem c49_iterator dbg H T allocator (h : A) it : setting H T allocator it ->
    (it_next it (N.to_nat (it_len it)) <> None \/ exists i, i < N.to_nat (it_len it) /\ it_next it i = None) ->
    from_header_and_iter dbg H T allocator h it = Err Panic \/ from_header_and_iter dbg H T allocator h it = Ok None.
  Proof.
    intros Hs Hbad. destruct (c49_no_ub dbg H T allocator h it Hs) as [?|[[a|] Ho]]; [by left| |by right].
    destruct (c49_read_back _ _ _ _ _ _ _ Hs Ho) as (xs&_&_&El&Hx&He). exfalso. destruct Hbad as [Hb|(i&Hi&Hb)].
    - apply Hb. by rewrite El, Nat2N.id.
    - rewrite El, Nat2N.id in Hi. destruct (lookup_lt_is_Some_2 _ _ Hi) as [x Hx']. rewrite (Hx _ _ Hx') in Hb. done.
  Qed.

  (** [from_raw] undoes [into_raw]; the pointer in between is aligned for the thin type, whose
      extent is inside the allocation *)
  Theorem c49_raw dbg H T allocator (h : A) it a : setting H T allocator it -> from_header_and_iter dbg H T allocator h it = Ok (Some a) ->
    from_raw H T (into_raw H T a) = al_addr a /\ (hs_align H T | into_raw H T a)%N /\ (into_raw H T a + hs_thin_size H T <= al_addr a + al_size a)%N.
  Proof.
    intros Hs Hok. destruct (built _ _ _ _ _ _ _ Hs Hok) as (xs&addr&Hh&Hz&Hf&Ha&->). destruct Hs as (HH&HT&Hall&Hth&Hn). unfold from_raw, into_raw. cbn [al_addr al_size].
    specialize (Hall _ _ _ Ha). split_and!.
    - lia.
    - rewrite <- inner_align_eq. apply N.divide_add_r; [done|by apply D_mult].
    - pose proof (thin_size_le H T HH HT (it_len it)). unfold inner_thin_size in *. pose proof (round_up_bounds (inner_data_off H T + hs_thin_size H T) (inner_align H T) (pow2_nz _ (inner_align_pow2 H T HH HT))). lia.
  Qed.
End c49.
Print Assumptions c49_no_ub.
Print Assumptions c49_overflow_panics.
Print Assumptions c49_enough_space.
Print Assumptions c49_fields.
Print Assumptions c49_read_back.
Print Assumptions c49_set_header.
Print Assumptions c49_dealloc.
Print Assumptions c49_iterator.
Print Assumptions c49_raw.

(** a token "abc": 24 bytes of count, header, length; 3 bytes of text; rounded up to 32 *)
Example c49_nonvacuous_token : exists a, token_abc = Some a /\ al_size a = 32%N /\ al_align a = 8%N /\
  map w_off (al_mem a) = [0; 8; 16; 24; 25; 26]%N /\ thin_deref token_head byte a = Ok (7, [97; 98; 99])%N.
Proof. eexists. by vm_compute. Qed.
(** a node with two children *)
Example c49_nonvacuous_node : exists a, node_2 = Some a /\ al_size a = 56%N /\ al_align a = 8%N /\
  map w_off (al_mem a) = [0; 8; 16; 24; 40]%N /\ thin_deref node_head green_child a = Ok (7, [1001; 1002])%N.
Proof. eexists. by vm_compute. Qed.
(** 2^60 children do not fit: the multiplication overflows; so does the rounding for 2^64 - 28 bytes;
    and 2^63 - 25 bytes are rejected by [Layout] *)
Example c49_nonvacuous_overflow :
  from_header_and_iter true node_head green_child demo_alloc 7%N (IT (2 ^ 60) (fun _ => Some 0%N)) = Err Panic /\
  from_header_and_iter true token_head byte demo_alloc 7%N (IT (2 ^ 64 - 28) (fun _ => Some 0%N)) = Err Panic /\
  from_header_and_iter true token_head byte demo_alloc 7%N (IT (2 ^ 63 - 25) (fun _ => Some 0%N)) = Err Panic.
Proof. by vm_compute. Qed.
Example c49_nonvacuous_iterator :
  from_header_and_iter true token_head byte demo_alloc 7%N (IT 3 (fun i => if (i <? 2)%nat then Some 0%N else None)) = Err Panic /\
  from_header_and_iter true token_head byte demo_alloc 7%N (IT 3 (fun i => if (i <? 4)%nat then Some 0%N else None)) = Err Panic.
Proof. by vm_compute. Qed.
