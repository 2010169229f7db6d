(** * Memory layout of green elements: src/arc.rs:241-263, 290-400

    [usize] is 64 bits wide.  Numbers are unbounded ([N]); every operation of the code
    that can overflow is written with its overflow behaviour. *)
From Verif Require Export Base.

(** size and alignment of a type, as [size_of] and [align_of] give them *)
(** Rust reference, type layout *)
Record ty := TY { sz : N; al : N }.
(** what Rust guarantees of a type: alignment a power of two, size a multiple of it *)
(** Rust reference, type layout *)
Definition ty_ok (t : ty) : Prop := (exists k, al t = 2 ^ k /\ k <= 61)%N /\ (al t | sz t)%N.
(** Rust reference, type layout *)
Definition t_usize : ty := TY 8 8.   (* [usize] and [AtomicUsize] *)

(** Rust reference, type layout *)
Definition usize_max1 : N := 2 ^ 64.
(** Rust reference, type layout *)
Definition isize_max : N := 2 ^ 63 - 1.

(** the next multiple of [a] *)
(** Rust reference, type layout *)
Definition round_up (x a : N) : N := ((x + (a - 1)) / a * a)%N.

(** ** Layout of [repr(C)] structs: fields in order, each at the next multiple of its
    alignment (the Rust reference) *)
Section types.
  Variables (H T : ty).
  (** arc.rs:243-247 [HeaderSlice<H, [T; 0]>]: [header], [length], [slice] *)
  Definition hs_length_off : N := round_up (sz H) (al t_usize).
  (** arc.rs:243-247 *)
  Definition hs_slice_off : N := round_up (hs_length_off + sz t_usize) (al T).
  (** arc.rs:243-247 *)
  Definition hs_align : N := N.max (al H) (N.max (al t_usize) (al T)).
  (** arc.rs:243-247 *)
  Definition hs_thin_size : N := round_up hs_slice_off hs_align.
  (** arc.rs:24-27 [ArcInner<HeaderSlice<H, [T; 0]>>]: [count], [data] *)
  Definition inner_data_off : N := round_up (sz t_usize) hs_align.
  (** arc.rs:24-27 *)
  Definition inner_align : N := N.max (al t_usize) hs_align.
  (** arc.rs:24-27 *)
  Definition inner_thin_size : N := round_up (inner_data_off + hs_thin_size) inner_align.
  (** [size_of_val] of [HeaderSlice<H, [T]>] and of [ArcInner] of it with [n] items *)
  (** arc.rs:24-27, 243-247 with [T] in place of [T; 0] *)
  Definition hs_fat_size (n : N) : N := round_up (hs_slice_off + sz T * n) hs_align.
  (** arc.rs:24-27, 243-247 with [T] in place of [T; 0] *)
  Definition inner_fat_size (n : N) : N := round_up (inner_data_off + hs_fat_size n) inner_align.
End types.

(** ** Memory *)
(** helper: contents of an allocation (arc.rs:368-380) *)
Inductive cell (A B : Type) := CCount (n : N) | CHeader (h : A) | CLength (n : N) | CItem (x : B).
Arguments CCount {_ _} _.
Arguments CHeader {_ _} _.
Arguments CLength {_ _} _.
Arguments CItem {_ _} _.
(** a write of a value of type [w_ty] at the offset [w_off] of the allocation *)
(** helper: contents of an allocation (arc.rs:368-380) *)
Record wr (A B : Type) := W { w_off : N; w_ty : ty; w_val : cell A B }.
Arguments W {_ _} _ _ _.
Arguments w_off {_ _} _.
Arguments w_ty {_ _} _.
Arguments w_val {_ _} _.
(** an allocation: its address, its layout, what has been written to it, in order *)
(** helper: contents of an allocation (arc.rs:368-380) *)
Record alloc (A B : Type) := AL { al_addr : N; al_size : N; al_align : N; al_mem : list (wr A B) }.
Arguments AL {_ _} _ _ _ _.
Arguments al_addr {_ _} _.
Arguments al_size {_ _} _.
Arguments al_align {_ _} _.
Arguments al_mem {_ _} _.

(** [ptr::write]: outside the allocation or at a misaligned address it is undefined *)
(** std; used at arc.rs:368-380 *)
Definition mwrite {A B} (off : N) (t : ty) (v : cell A B) (a : alloc A B) : res (alloc A B) :=
  if ((off + sz t <=? al_size a) && ((al_addr a + off) mod al t =? 0))%N
  then Ok (AL (al_addr a) (al_size a) (al_align a) (al_mem a ++ [W off t v]))
  else Err UB.
(** a typed read finds the value last written there; bytes changed by another write in
    between make it undefined *)
(** std; the reads at arc.rs:290-292, 250-252 *)
Definition overlap {A B} (off : N) (t : ty) (w : wr A B) : bool :=
  ((off <? w_off w + sz (w_ty w)) && (w_off w <? off + sz t))%N.
(** std; the reads at arc.rs:290-292, 250-252 *)
Fixpoint mread_l {A B} (l : list (wr A B)) (off : N) (t : ty) : res (cell A B) :=
  match l with
  | [] => Err UB
  | w :: l' => if ((w_off w =? off) && (sz (w_ty w) =? sz t))%N then Ok (w_val w)
               else if overlap off t w then Err UB else mread_l l' off t
  end.
(** std; the reads at arc.rs:290-292, 250-252 *)
Definition mread {A B} (a : alloc A B) (off : N) (t : ty) : res (cell A B) := mread_l (rev (al_mem a)) off t.

(** ** [ThinArc::from_header_and_iter] *)
(** an [ExactSizeIterator]: the length it reports, and what its successive [next] give
    (it may misreport, and may go on after a [None]) *)
(** std [ExactSizeIterator], arc.rs:321-324 *)
Record iter (B : Type) := IT { it_len : N; it_next : nat -> option B }.
Arguments IT {_} _ _.
Arguments it_len {_} _.
Arguments it_next {_} _.

(** std; used at arc.rs:335 *)
Definition checked_mul (a b : N) : res N := if (a * b <? usize_max1)%N then Ok (a * b)%N else Err Panic.
(** std; used at arc.rs:336 *)
Definition checked_add (a b : N) : res N := if (a + b <? usize_max1)%N then Ok (a + b)%N else Err Panic.
(** std; used at arc.rs:340 *)
Definition wrapping_add (a b : N) : N := ((a + b) mod usize_max1)%N.
(** [Layout::from_size_align(..).expect(..)] (std): size rounded up to align at most [isize::MAX] *)
(** std; used at arc.rs:342 *)
Definition layout_new (size align : N) : res (N * N) :=
  if (size <=? isize_max - (align - 1))%N then Ok (size, align) else Err Panic.

Section build.
  Context {A B : Type}.
  Variables (dbg : bool) (H T : ty) (allocator : N -> N -> option N).

  (** arc.rs:374-380: the loop over the items; [k] items to go, [i] calls of [next] so far *)
  Fixpoint write_items (k : nat) (it : iter B) (i : nat) (current : N) (a : alloc A B) : res (N * alloc A B) :=
    match k with
    | 0 => Ok (current, a)
    | S k' =>
        x ← unwrap (it_next it i);
        a ← mwrite current T (CItem x) a;
        write_items k' it (S i) (current + sz T)%N a
    end.

  (** arc.rs:321-390; [dbg]: debug assertions are on.  [Ok None]: the allocator failed and
      [handle_alloc_error] ended the process *)
  Definition from_header_and_iter (header : A) (items : iter B) : res (option (alloc A B)) :=
    rassert (negb (sz T =? 0)%N) ≫= fun _ =>
    let num_items := it_len items in
    let slice_offset := (inner_data_off H T + hs_slice_off H T)%N in
    slice_size ← checked_mul (sz T) num_items;
    usable_size ← checked_add slice_offset slice_size;
    let align := inner_align H T in
    let size := N.land (wrapping_add usable_size (align - 1)) (N.lnot (align - 1) 64) in
    rassert (usable_size <=? size)%N ≫= fun _ =>
    '(size, align) ← layout_new size align;
    match allocator size align with
    | None => Ok None
    | Some addr =>
        a ← mwrite 0 t_usize (CCount 1) (AL addr size align []);
        a ← mwrite (inner_data_off H T) H (CHeader header) a;
        a ← mwrite (inner_data_off H T + hs_length_off H) t_usize (CLength num_items) a;
        '(i, a) ←
          (if (num_items =? 0)%N then Ok (0, a) else
             let current := (inner_data_off H T + hs_slice_off H T)%N in
             rassert (negb dbg || (current =? slice_offset)%N) ≫= fun _ =>
             '(current, a) ← write_items (N.to_nat num_items) items 0 current a;
             rassert (match it_next items (N.to_nat num_items) with None => true | _ => false end) ≫= fun _ =>
             rassert (negb dbg || (current =? usable_size)%N) ≫= fun _ =>
             Ok (S (N.to_nat num_items), a));
        rassert (match it_next items i with None => true | _ => false end) ≫= fun _ =>
        Ok (Some a)
    end.

  (** arc.rs:290-297, 397-399 [deref] through [thin_to_thick]: the length is read from the
      allocation; [header] and the slice are then where [HeaderSlice<H, [T]>] has them.
      arc.rs:250-252 [slice] *)
  Fixpoint read_items (k : nat) (off : N) (a : alloc A B) : res (list B) :=
    match k with
    | 0 => Ok []
    | S k' =>
        c ← mread a off T;
        match c with
        | CItem x => xs ← read_items k' (off + sz T)%N a; Ok (x :: xs)
        | _ => Err UB
        end
    end.
  (** arc.rs:397-399 *)
  Definition thin_deref (a : alloc A B) : res (A * list B) :=
    l ← mread a (inner_data_off H T + hs_length_off H) t_usize;
    h ← mread a (inner_data_off H T) H;
    match l, h with
    | CLength n, CHeader h =>
        xs ← read_items (N.to_nat n) (inner_data_off H T + hs_slice_off H T) a; Ok (h, xs)
    | _, _ => Err UB
    end.
  (** arc.rs:152-159: the count, at the start of the allocation *)
  Definition read_count (a : alloc A B) : res N :=
    c ← mread a 0 t_usize; match c with CCount n => Ok n | _ => Err UB end.
  (** arc.rs:79-83 [Box::from_raw] and its drop: the layout given to the deallocator is that of
      the [ArcInner<HeaderSlice<H, [T]>>] with the length read by [thin_to_thick] *)
  Definition dealloc_layout (a : alloc A B) : res (N * N) :=
    l ← mread a (inner_data_off H T + hs_length_off H) t_usize;
    match l with CLength n => Ok (inner_fat_size H T n, inner_align H T) | _ => Err UB end.
  (** green/node.rs:227: [get_mut(..).header = h] *)
  Definition set_header (h : A) (a : alloc A B) : res (alloc A B) := mwrite (inner_data_off H T) H (CHeader h) a.
  (** green/node.rs:235-239 [into_raw]: the address of [data]; arc.rs:55-62 [from_raw] *)
  Definition into_raw (a : alloc A B) : N := (al_addr a + inner_data_off H T)%N.
  (** arc.rs:55-62 *)
  Definition from_raw (p : N) : N := (p - inner_data_off H T)%N.
End build.
