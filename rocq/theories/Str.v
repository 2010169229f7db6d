(** * Rust [str] and [char]

    A [str] is modelled as the list of its Unicode scalar values, a [char] as
    its scalar value; byte positions are computed from the UTF-8 widths.  Valid
    UTF-8 byte strings and such lists are in bijection and UTF-8 is
    self-synchronising, so [starts_with], [find] and [==] on bytes and on scalar
    values agree.  (External: Rust std; not code of /repo.) *)
From Verif Require Export Base.

(** Rust's [char]: a Unicode scalar value *)
Definition char := N.
Bind Scope N_scope with char.
(** Rust's [str]: here the list of its scalar values *)
Definition str := list char.

(** [char::len_utf8] *)
(** std; the text of a token is UTF-8 (green/token.rs:98-100) *)
Definition width (c : char) : N :=
  if (c <? 128)%N then 1%N else if (c <? 2048)%N then 2%N
  else if (c <? 65536)%N then 3%N else 4%N.

(** [str::len]: length in bytes *)
(** std; used at green/token.rs:105 *)
Fixpoint blen (s : str) : N :=
  match s with [] => 0%N | c :: s' => (width c + blen s')%N end.

(** split a string at a byte position; [None] if it is past the end or not on a
    char boundary *)
(** helper of the slicing functions below *)
Fixpoint split_bytes (s : str) (n : N) : option (str * str) :=
  if (n =? 0)%N then Some ([], s) else
  match s with
  | [] => None
  | c :: s' =>
      if (n <? width c)%N then None else
      match split_bytes s' (n - width c) with
      | Some (a, b) => Some (c :: a, b)
      | None => None
      end
  end.

(** [str::is_char_boundary] *)
(** std; used at api.rs:70 *)
Definition is_char_boundary (s : str) (n : N) : bool :=
  match split_bytes s n with Some _ => true | None => false end.

(** [&s[a..b]]: panics unless a <= b <= s.len() and both are char boundaries *)
(** std; used at syntax_text.rs:87, api.rs:71 *)
Definition str_slice (s : str) (a b : N) : res str :=
  if (b <? a)%N then Err Panic else
  match split_bytes s b with
  | None => Err Panic
  | Some (l, _) =>
      match split_bytes l a with
      | None => Err Panic
      | Some (_, m) => Ok m
      end
  end.

(** [&s[a..]] *)
(** std; used at syntax_text.rs:51, 151 *)
Definition str_from (s : str) (a : N) : res str :=
  match split_bytes s a with None => Err Panic | Some (_, m) => Ok m end.

(** [str::starts_with(&str)] *)
(** std; used at syntax_text.rs:148, 202 *)
Fixpoint starts_with (s p : str) : bool :=
  match p, s with
  | [], _ => true
  | _ :: _, [] => false
  | c :: p', d :: s' => (c =? d)%N && starts_with s' p'
  end.

(** [str::find(char)]: byte position of the first occurrence *)
(** std; used at syntax_text.rs:35 *)
Fixpoint str_find (s : str) (c : char) : option N :=
  match s with
  | [] => None
  | d :: s' => if (c =? d)%N then Some 0%N else (fun n => (width d + n)%N) <$> str_find s' c
  end.

(** [str::contains(char)] *)
(** std; used at syntax_text.rs:29 *)
Fixpoint str_contains (s : str) (c : char) : bool :=
  match s with [] => false | d :: s' => (c =? d)%N || str_contains s' c end.

(** ** Facts *)
Lemma width_pos c : (0 < width c)%N.
Proof. unfold width. repeat case_match; lia. Qed.
Lemma width_le4 c : (width c <= 4)%N.
Proof. unfold width. repeat case_match; lia. Qed.

Lemma blen_app s1 s2 : blen (s1 ++ s2) = (blen s1 + blen s2)%N.
Proof. induction s1 as [|c s1 IH]; simpl; [lia|]. rewrite IH. lia. Qed.
Lemma blen_0 s : blen s = 0%N -> s = [].
Proof. destruct s as [|c s]; [done|]. simpl. pose proof (width_pos c). lia. Qed.
Lemma blen_nil_iff s : blen s = 0%N <-> s = [].
Proof. split; [apply blen_0|by intros ->]. Qed.

Lemma split_bytes_Some s n a b :
  split_bytes s n = Some (a, b) <-> s = a ++ b /\ blen a = n.
Proof.
  revert n a b. induction s as [|c s IH]; intros n a b; simpl.
  - destruct (N.eqb_spec n 0) as [->|Hn].
    + split; [intros [= <- <-]; done|]. intros [H1 H2].
      symmetry in H1. apply app_nil in H1 as [-> ->]. done.
    + split; [done|]. intros [H1 H2]. symmetry in H1. apply app_nil in H1 as [-> ->].
      simpl in H2. lia.
  - destruct (N.eqb_spec n 0) as [->|Hn].
    + split; [intros [= <- <-]; done|]. intros [H1 H2]. apply blen_0 in H2 as ->. simpl in H1. by subst.
    + destruct (N.ltb_spec n (width c)).
      * split; [done|]. intros [H1 H2]. destruct a as [|d a]; simpl in *; [lia|].
        injection H1 as <- ?. lia.
      * destruct (split_bytes s (n - width c)) as [[a' b']|] eqn:E.
        -- apply IH in E as [-> E2]. split.
           ++ intros [= <- <-]. simpl. split; [done|lia].
           ++ intros [H1 H2]. destruct a as [|d a]; simpl in *; [lia|].
              injection H1 as <- H1.
              assert (Hs : split_bytes (a' ++ b') (n - width c) = Some (a', b')) by (apply IH; done).
              assert (Hs' : split_bytes (a' ++ b') (n - width c) = Some (a, b)).
              { apply IH. split; [done|]. lia. }
              rewrite Hs in Hs'. by injection Hs' as -> ->.
        -- split; [done|]. intros [H1 H2]. destruct a as [|d a]; simpl in *; [lia|].
           injection H1 as <- H1.
           assert (Hs' : split_bytes s (n - width c) = Some (a, b)) by (apply IH; split; [done|lia]).
           congruence.
Qed.

Lemma split_bytes_app s1 s2 : split_bytes (s1 ++ s2) (blen s1) = Some (s1, s2).
Proof. by apply split_bytes_Some. Qed.

Lemma app_blen_inj s1 s2 t1 t2 : s1 ++ s2 = t1 ++ t2 -> blen s1 = blen t1 -> s1 = t1 /\ s2 = t2.
Proof.
  intros H1 H2. pose proof (split_bytes_app s1 s2) as E.
  rewrite H1, H2, split_bytes_app in E. by injection E as -> ->.
Qed.

Lemma str_slice_Ok s a b m :
  str_slice s a b = Ok m <->
  exists p q, s = p ++ m ++ q /\ blen p = a /\ blen (p ++ m) = b.
Proof.
  unfold str_slice. destruct (N.ltb_spec b a).
  - split; [done|]. intros (p&q&->&<-&<-). rewrite blen_app in H. lia.
  - destruct (split_bytes s b) as [[l r]|] eqn:E.
    + apply split_bytes_Some in E as [-> Eb]. destruct (split_bytes l a) as [[p m']|] eqn:E.
      * apply split_bytes_Some in E as [-> Ea]. split.
        -- intros [= <-]. exists p, r. by rewrite app_assoc.
        -- intros (p'&q'&H1&H2&H3). rewrite app_assoc in H1.
           apply app_blen_inj in H1 as [H1 _]; [|congruence].
           apply app_blen_inj in H1 as [_ ->]; congruence.
      * split; [done|]. intros (p'&q'&H1&H2&H3). rewrite app_assoc in H1.
        apply app_blen_inj in H1 as [-> _]; [|congruence].
        rewrite <- H2, split_bytes_app in E. done.
    + split; [done|]. intros (p'&q'&->&H2&H3). rewrite app_assoc, <- H3, split_bytes_app in E. done.
Qed.

Lemma str_from_Ok s a m : str_from s a = Ok m <-> exists p, s = p ++ m /\ blen p = a.
Proof.
  unfold str_from. destruct (split_bytes s a) as [[l r]|] eqn:E.
  - apply split_bytes_Some in E as [-> Eb]. split.
    + intros [= ->]. eauto.
    + intros (p&H1&H2). apply app_blen_inj in H1 as [_ ->]; congruence.
  - split; [done|]. intros (p&->&<-). by rewrite split_bytes_app in E.
Qed.

Lemma starts_with_iff s p : starts_with s p = true <-> exists q, s = p ++ q.
Proof.
  revert s. induction p as [|c p IH]; intros s; simpl.
  - destruct s; split; eauto.
  - destruct s as [|d s]; [split; [done|by intros (q&?)]|].
    simpl. rewrite andb_true_iff, IH, N.eqb_eq. split.
    + intros [-> (q&->)]. eauto.
    + intros (q&[= -> ->]). eauto.
Qed.

Lemma str_contains_iff s c : str_contains s c = true <-> c ∈ s.
Proof.
  induction s as [|d s IH]; simpl.
  - split; [done|by intros ?%elem_of_nil].
  - rewrite orb_true_iff, IH, N.eqb_eq, elem_of_cons. done.
Qed.

Lemma str_find_Some s c n :
  str_find s c = Some n <-> exists p q, s = p ++ c :: q /\ blen p = n /\ c ∉ p.
Proof.
  revert n. induction s as [|d s IH]; intros n; simpl.
  - split; [done|]. intros (p&q&H&_). by destruct p.
  - destruct (N.eqb_spec c d) as [->|Hne].
    + split.
      * intros [= <-]. exists [], s. split; [done|]. split; [done|]. apply not_elem_of_nil.
      * intros ([|e p]&q&H1&H2&H3); simpl in *; [congruence|].
        injection H1 as <- _. set_solver.
    + rewrite fmap_Some. split.
      * intros (m&Hm&->). apply IH in Hm as (p&q&->&<-&Hn). exists (d :: p), q.
        split; [done|]. split; [done|]. set_solver.
      * intros ([|e p]&q&H1&H2&H3); simpl in *; [congruence|].
        injection H1 as <- ->. exists (blen p). split; [|lia].
        apply IH. exists p, q. split; [done|]. split; [done|]. set_solver.
Qed.
Lemma str_find_None s c : str_find s c = None <-> c ∉ s.
Proof.
  induction s as [|d s IH]; simpl.
  - split; [|done]. intros _. apply not_elem_of_nil.
  - destruct (N.eqb_spec c d) as [->|Hne]; [split; [done|set_solver]|].
    rewrite fmap_None, IH. set_solver.
Qed.
