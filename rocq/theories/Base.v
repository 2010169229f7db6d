(** * Base: results, lists, small combinators shared by the whole model.

    Nothing here models code of /repo except where a citation is given; these
    are the vocabulary in which the code is written down. *)
Require Export Lia ZifyBool ZifyNat ZifyN.
From stdpp Require Export prelude numbers option.
From stdpp Require Export list.
Export ListNotations.

Global Set Default Proof Using "Type".
Arguments N.add : simpl never.
Arguments N.sub : simpl never.
Arguments N.mul : simpl never.
Arguments N.leb : simpl never.
Arguments N.ltb : simpl never.
Arguments N.eqb : simpl never.
Arguments N.of_nat : simpl never.
Arguments andb : simpl never.
Arguments orb : simpl never.

(** ** Outcomes of running Rust code.
    [Panic]: a Rust panic ([assert!], [unwrap], [unreachable!], arithmetic
    overflow in a checked build, ...).  [UB]: dereference of a dead or null
    pointer.  [Diverge]: a loop ran out of the fuel given to it. *)
(** the ways a call of the code can fail; no code of its own *)
Inductive err := Panic | UB | Diverge.
(** the outcome of a call; the [Result]-free functions of the code return [Ok] *)
Inductive res (A : Type) := Ok (a : A) | Err (e : err).
Arguments Ok {_} _.
Arguments Err {_} _.

(** helper: the monad of outcomes *)
Global Instance res_ret : MRet res := @Ok.
(** helper: the monad of outcomes *)
Global Instance res_bind : MBind res := fun A B f x =>
  match x with Ok a => f a | Err e => Err e end.
(** helper: the monad of outcomes *)
Global Instance res_fmap : FMap res := fun A B f x =>
  match x with Ok a => Ok (f a) | Err e => Err e end.

(** helper of statements: the call returns *)
Definition is_ok {A} (x : res A) : Prop := exists a, x = Ok a.

(** [Option::unwrap] / [Option::expect] *)
(** std; used e.g. at cursor.rs:356-357, 1496 *)
Definition unwrap {A} (o : option A) : res A :=
  match o with Some a => Ok a | None => Err Panic end.
(** [assert!] *)
(** std; used e.g. at cursor.rs:458, 581 *)
Definition rassert (b : bool) : res unit := if b then Ok tt else Err Panic.

Lemma res_bind_ok {A B} (x : res A) (f : A -> res B) b :
  x ≫= f = Ok b <-> exists a, x = Ok a /\ f a = Ok b.
Proof. destruct x; split; [eauto|intros (?&[= ->]&?); done| done | intros (?&[=]&?)]. Qed.
Lemma res_bind_err {A B} (x : res A) (f : A -> res B) e :
  x ≫= f = Err e <-> x = Err e \/ exists a, x = Ok a /\ f a = Err e.
Proof.
  destruct x; split; [eauto|intros [[=]|(?&[= ->]&?)]; done| intros [= ->]; by left |].
  intros [[= ->]|(?&[=]&?)]; done.
Qed.

(** ** Iterator vocabulary *)

(** [Iterator::enumerate] *)
(** std; used e.g. at cursor.rs:686, 715 *)
Definition enumerate {A} (l : list A) : list (nat * A) := imap (fun i x => (i, x)) l.

(** [Iterator::find_map] *)
(** std; used e.g. at cursor.rs:686-695 *)
Fixpoint find_map {A B} (f : A -> option B) (l : list A) : option B :=
  match l with
  | [] => None
  | x :: l' => match f x with Some b => Some b | None => find_map f l' end
  end.

(** [Iterator::filter_map] *)
(** std; used e.g. at cursor.rs:855-858 *)
Fixpoint filter_map {A B} (f : A -> option B) (l : list A) : list B :=
  match l with
  | [] => []
  | x :: l' => match f x with Some b => b :: filter_map f l' | None => filter_map f l' end
  end.

(** [Iterator::find] *)
(** std; used e.g. at ast.rs:235 *)
Fixpoint findb {A} (f : A -> bool) (l : list A) : option A :=
  match l with
  | [] => None
  | x :: l' => if f x then Some x else findb f l'
  end.

Lemma lookup_enumerate {A} (l : list A) i : enumerate l !! i = (fun x => (i, x)) <$> l !! i.
Proof. apply list_lookup_imap. Qed.
Lemma length_enumerate {A} (l : list A) : length (enumerate l) = length l.
Proof. apply imap_length. Qed.

Lemma rev_reverse {A} (l : list A) : rev l = reverse l.
Proof. unfold reverse. apply rev_alt. Qed.

Lemma find_map_Some {A B} (f : A -> option B) l b :
  find_map f l = Some b <->
  exists i x, l !! i = Some x /\ f x = Some b /\ (forall k y, k < i -> l !! k = Some y -> f y = None).
Proof.
  induction l as [|x l IH]; simpl.
  - split; [done|]. intros (i&x&H&_). by rewrite lookup_nil in H.
  - destruct (f x) as [b'|] eqn:E.
    + split.
      * intros [= ->]. exists 0, x. split; [done|]. split; [done|]. intros; lia.
      * intros (i&y&Hi&Hf&Hk). destruct i as [|i]; simpl in Hi; [congruence|].
        specialize (Hk 0 x ltac:(lia) eq_refl). congruence.
    + rewrite IH. split.
      * intros (i&y&Hi&Hf&Hk). exists (S i), y. split; [done|]. split; [done|].
        intros [|k] z Hlt Hz; simpl in Hz; [congruence|]. eapply Hk; [|done]. lia.
      * intros (i&y&Hi&Hf&Hk). destruct i as [|i]; simpl in Hi; [congruence|].
        exists i, y. split; [done|]. split; [done|]. intros k z Hlt Hz.
        apply (Hk (S k) z); [lia|done].
Qed.
Lemma find_map_None {A B} (f : A -> option B) l :
  find_map f l = None <-> forall i x, l !! i = Some x -> f x = None.
Proof.
  induction l as [|x l IH]; simpl.
  - split; [|done]. intros _ i x H. by rewrite lookup_nil in H.
  - destruct (f x) as [b'|] eqn:E.
    + split; [done|]. intros H. specialize (H 0 x eq_refl). congruence.
    + rewrite IH. split.
      * intros H [|i] y Hy; simpl in Hy; [congruence|eauto].
      * intros H i y Hy. apply (H (S i)). done.
Qed.

Lemma find_map_drop_enum_Some {A B} (f : nat * A -> option B) l n b :
  find_map f (drop n (enumerate l)) = Some b <->
  exists j x, n <= j /\ l !! j = Some x /\ f (j, x) = Some b /\
    (forall k y, n <= k < j -> l !! k = Some y -> f (k, y) = None).
Proof.
  rewrite find_map_Some. split.
  - intros (i&[j x]&Hi&Hf&Hk). rewrite lookup_drop, lookup_enumerate in Hi.
    apply fmap_Some in Hi as (x'&Hx&[= -> <-]).
    exists (n + i), x. split; [lia|]. split; [done|]. split; [done|].
    intros k y Hlt Hy. apply (Hk (k - n)); [lia|].
    rewrite lookup_drop, lookup_enumerate. replace (n + (k - n)) with k by lia. by rewrite Hy.
  - intros (j&x&Hle&Hx&Hf&Hk). exists (j - n), (j, x).
    rewrite lookup_drop, lookup_enumerate. replace (n + (j - n)) with j by lia. rewrite Hx.
    split; [done|]. split; [done|]. intros k [k' y] Hlt Hy.
    rewrite lookup_drop, lookup_enumerate in Hy.
    apply fmap_Some in Hy as (x'&Hx'&[= -> <-]). apply Hk; [lia|done].
Qed.
Lemma find_map_drop_enum_None {A B} (f : nat * A -> option B) l n :
  find_map f (drop n (enumerate l)) = None <->
  (forall k y, n <= k -> l !! k = Some y -> f (k, y) = None).
Proof.
  rewrite find_map_None. split.
  - intros H k y Hle Hy. apply (H (k - n)).
    rewrite lookup_drop, lookup_enumerate. replace (n + (k - n)) with k by lia. by rewrite Hy.
  - intros H i [j x] Hi. rewrite lookup_drop, lookup_enumerate in Hi.
    apply fmap_Some in Hi as (x'&Hx&[= -> <-]). apply H; [lia|done].
Qed.

(** the reversed enumeration with the first [length l - n] elements skipped:
    the elements of index < n, last first *)
Lemma find_map_rev_enum_Some {A B} (f : nat * A -> option B) l n b :
  n <= length l ->
  find_map f (drop (length l - n) (rev (enumerate l))) = Some b <->
  exists j x, j < n /\ l !! j = Some x /\ f (j, x) = Some b /\
    (forall k y, j < k < n -> l !! k = Some y -> f (k, y) = None).
Proof.
  intros Hn. rewrite find_map_Some.
  assert (Hlk : forall i, drop (length l - n) (reverse (enumerate l)) !! i =
     if decide (i < n) then (fun x => (n - 1 - i, x)) <$> l !! (n - 1 - i) else None).
  { intros i. rewrite lookup_drop. destruct (decide (i < n)).
    - rewrite reverse_lookup by (rewrite length_enumerate; lia).
      rewrite length_enumerate, lookup_enumerate.
      replace (length l - S (length l - n + i)) with (n - 1 - i) by lia. done.
    - apply lookup_ge_None. rewrite reverse_length, length_enumerate. lia. }
  rewrite rev_reverse.
  split.
  - intros (i&[j x]&Hi&Hf&Hk). rewrite Hlk in Hi. destruct (decide (i < n)); [|done].
    apply fmap_Some in Hi as (x'&Hx&[= -> <-]).
    exists (n - 1 - i), x. split; [lia|]. split; [done|]. split; [done|].
    intros k y Hlt Hy. apply (Hk (n - 1 - k)); [lia|].
    rewrite Hlk. destruct (decide _); [|lia].
    replace (n - 1 - (n - 1 - k)) with k by lia. by rewrite Hy.
  - intros (j&x&Hle&Hx&Hf&Hk). exists (n - 1 - j), (j, x).
    rewrite Hlk. destruct (decide _); [|lia].
    replace (n - 1 - (n - 1 - j)) with j by lia. rewrite Hx.
    split; [done|]. split; [done|]. intros k [k' y] Hlt Hy.
    rewrite Hlk in Hy. destruct (decide _); [|done].
    apply fmap_Some in Hy as (x'&Hx'&[= -> <-]). apply Hk; [lia|done].
Qed.
Lemma find_map_rev_enum_None {A B} (f : nat * A -> option B) l n :
  n <= length l ->
  find_map f (drop (length l - n) (rev (enumerate l))) = None <->
  (forall k y, k < n -> l !! k = Some y -> f (k, y) = None).
Proof.
  intros Hn. split.
  - intros H k y Hk Hy.
    destruct (f (k, y)) as [b|] eqn:E; [|done]. exfalso.
    assert (Hin : (k, y) ∈ drop (length l - n) (reverse (enumerate l))).
    { apply elem_of_list_lookup. exists (n - 1 - k). rewrite lookup_drop.
      rewrite reverse_lookup by (rewrite length_enumerate; lia).
      rewrite length_enumerate, lookup_enumerate.
      replace (length l - S (length l - n + (n - 1 - k))) with k by lia. by rewrite Hy. }
    rewrite rev_reverse in H.
    apply elem_of_list_lookup in Hin as [i Hi].
    eapply find_map_None in H; [|exact Hi]. congruence.
  - intros H. destruct (find_map _ _) as [b|] eqn:E; [|done].
    apply find_map_rev_enum_Some in E as (j&x&Hj&Hx&Hf&_); [|done].
    rewrite H in Hf; done.
Qed.

Lemma filter_map_app {A B} (f : A -> option B) l1 l2 :
  filter_map f (l1 ++ l2) = filter_map f l1 ++ filter_map f l2.
Proof. induction l1 as [|x l1 IH]; simpl; [done|]. rewrite IH. by destruct (f x). Qed.
Lemma elem_of_filter_map {A B} (f : A -> option B) l b :
  b ∈ filter_map f l <-> exists x, x ∈ l /\ f x = Some b.
Proof.
  induction l as [|x l IH]; simpl.
  - split; [by intros ?%elem_of_nil|]. intros (?&?%elem_of_nil&_). done.
  - destruct (f x) as [b'|] eqn:E.
    + rewrite elem_of_cons, IH. split.
      * intros [->|(y&?&?)]; [exists x|exists y]; rewrite elem_of_cons; eauto.
      * intros (y&[->|?]%elem_of_cons&?); [left; congruence|right; eauto].
    + rewrite IH. split; intros (y&Hy&?); [exists y; rewrite elem_of_cons; eauto|].
      apply elem_of_cons in Hy as [->|?]; [congruence|eauto].
Qed.
