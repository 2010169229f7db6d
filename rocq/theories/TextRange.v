(** * TextSize / TextRange (external crate text-size 1.1.1)

    A [TextSize] is a [u32], modelled as [N].  A [TextRange] is a pair
    start <= end.  Modelled from the crate's documented behaviour. *)
From Verif Require Export Spec.

(** Arithmetic profile of the build: [Checked] = overflow-checks on (debug),
    [Wrapping] = overflow-checks off (release). *)
(** a build option of the crate (Cargo.toml has no profile of its own) *)
Inductive profile := Checked | Wrapping.

(** [u32 + u32] *)
(** text-size [TextSize + TextSize]; used e.g. at green/node.rs:211, cursor.rs:357, 692 *)
Definition add32 (pr : profile) (a b : N) : res N :=
  if (a + b <=? u32_max)%N then Ok (a + b)%N
  else match pr with Checked => Err Panic | Wrapping => Ok ((a + b) mod (u32_max + 1))%N end.

(** text-size [TextRange]; re-exported in lib.rs:29 *)
Record range := TR { rstart : N; rend : N }.
(** type invariant of [TextRange] *)
(** text-size *)
Definition range_ok (r : range) : Prop := (rstart r <= rend r)%N.

(** text-size [TextRange::at], used at cursor.rs:368 *)
Definition range_at (off len : N) : range := TR off (off + len).
(** text-size [TextRange::len], used at syntax_text.rs:20-22, 179 *)
Definition range_len (r : range) : N := (rend r - rstart r)%N.
(** text-size [TextRange::is_empty], used at syntax_text.rs:24-26, cursor.rs:896 *)
Definition range_is_empty (r : range) : bool := (rstart r =? rend r)%N.
(** [TextRange::contains_range] *)
(** text-size; used at cursor.rs:919-921 *)
Definition contains_range (r o : range) : bool := (rstart r <=? rstart o)%N && (rend o <=? rend r)%N.
(** [TextRange::intersect] *)
(** text-size; used at syntax_text.rs:113 *)
Definition range_intersect (r o : range) : option range :=
  let s := N.max (rstart r) (rstart o) in
  let e := N.min (rend r) (rend o) in
  if (e <? s)%N then None else Some (TR s e).
(** [TextRange::ordering] *)
(** text-size; used at green/node.rs:150 *)
Definition range_ordering (r o : range) : comparison :=
  if (rend r <=? rstart o)%N then Lt
  else if (rend o <=? rstart r)%N then Gt
  else Eq.
(** [TextRange - TextSize]: [checked_sub(..).expect(..)] *)
(** text-size; used at cursor.rs:936, syntax_text.rs:114 *)
Definition range_sub (r : range) (o : N) : res range :=
  if (o <=? rstart r)%N then Ok (TR (rstart r - o) (rend r - o)) else Err Panic.
(** text-size [PartialEq]; used at ast.rs:104 *)
Definition range_eqb (r o : range) : bool := (rstart r =? rstart o)%N && (rend r =? rend o)%N.

Lemma range_eqb_eq r o : range_eqb r o = true <-> r = o.
Proof.
  unfold range_eqb. destruct r, o; simpl. rewrite andb_true_iff, !N.eqb_eq.
  split; [intros [-> ->]; done|by intros [= -> ->]].
Qed.
Lemma contains_range_iff r o :
  contains_range r o = true <-> (rstart r <= rstart o /\ rend o <= rend r)%N.
Proof. unfold contains_range. rewrite andb_true_iff, !N.leb_le. done. Qed.
