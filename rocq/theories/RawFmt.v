(** * [Debug] of [cursor::SyntaxNode] (src/cursor.rs:1295-1302), on immutable trees *)
Require Import String.
From Verif Require Export GreenFmtFacts.

(** [Debug for TextRange] in the text-size crate: [write!(f, "{}..{}", ..)] *)
(** text-size; used at cursor.rs:1299 *)
Definition dbg_range (r : range) : dbg := fun _ => [dec (rstart r); lit ".."; dec (rend r)].
(** cursor.rs:1295-1302; [text_range] (cursor.rs:365-369) in a build with or without overflow checks is a parameter.  It is
    asked for after the field [kind], whether or not that could be written; a panic loses what was written *)
Definition fmt_raw_node (text_range : cursor -> res range) (sink : str -> str -> option nat) (alt : bool) (c : cursor) (out : str) : fres :=
  r ← text_range c;
  wpieces sink (debug_struct (lit "SyntaxNode") [(lit "kind", dbg_kind (c_kind c)); (lit "text_range", dbg_range r)] alt) out.

(** specification: a node is shown by its kind and range *)
Definition raw_line (k : kind) (a b : N) : str :=
  lit "SyntaxNode { kind: SyntaxKind(" ++ dec k ++ lit "), text_range: " ++ dec a ++ lit ".." ++ dec b ++ lit " }".
(** specification: the same over several lines *)
Definition raw_lines (k : kind) (a b : N) : list (nat * str) :=
  [(0, lit "SyntaxNode {"); (1, lit "kind: SyntaxKind("); (2, dec k ++ lit ","); (1, lit "),");
   (1, lit "text_range: " ++ dec a ++ lit ".." ++ dec b ++ lit ","); (0, lit "}")].

Lemma dbg_raw_one k r : concat (debug_struct (lit "SyntaxNode") [(lit "kind", dbg_kind k); (lit "text_range", dbg_range r)] false) = raw_line k (rstart r) (rend r).
Proof. unfold debug_struct, dbg_kind, debug_tuple1, dbg_num, dbg_range, raw_line; cbn -[dec lit]; lits; cbn -[dec]; rewrite ?app_nil_r, <- ?app_assoc; done. Qed.
Lemma dbg_raw_more k r : concat (debug_struct (lit "SyntaxNode") [(lit "kind", dbg_kind k); (lit "text_range", dbg_range r)] true) = line_up (raw_lines k (rstart r) (rend r)).
Proof.
  unfold dbg_kind, debug_tuple1, dbg_num, dbg_range, raw_lines; cbn -[dec pad_pieces pads concat app lit].
  destruct (dec_plain k) as [K1 K2]. destruct (dec_plain (rstart r)) as [A1 A2]. destruct (dec_plain (rend r)) as [B1 B2].
  generalize dependent (dec k). generalize dependent (dec (rstart r)). generalize dependent (dec (rend r)). intros db B1 B2 da A1 A2 dk K1 K2.
  rewrite ?concat_cons, ?concat_app, ?pad_pieces_ok. cbn -[pad_pieces pads lit]. rewrite ?concat_app, ?pad_pieces_ok. lits. crunch. done.
Qed.
Lemma raw_line_inj k a b k' a' b' : raw_line k a b = raw_line k' a' b' -> k = k' /\ a = a' /\ b = b'.
Proof.
  unfold raw_line. lits. intros E. cbn -[dec] in E. repeat (injection E as E).
  apply before_char in E as [E1 E]; [|apply dec_no; lia..]. repeat (injection E as E).
  apply before_char in E as [E2 E]; [|apply dec_no; lia..]. repeat (injection E as E).
  apply before_char in E as [E3 E]; [|apply dec_no; lia..].
  by apply dec_inj in E1, E2, E3.
Qed.
Lemma raw_writes tr sink c r : tr c = Ok r ->
  writes sink (fmt_raw_node tr sink false c) (raw_line (c_kind c) (rstart r) (rend r)) /\
  writes sink (fmt_raw_node tr sink true c) (line_up (raw_lines (c_kind c) (rstart r) (rend r))).
Proof.
  intros E. rewrite <- dbg_raw_one, <- dbg_raw_more. split.
  - eapply writes_ext; [|apply writes_pieces]. intros out. unfold fmt_raw_node. by rewrite E.
  - eapply writes_ext; [|apply writes_pieces]. intros out. unfold fmt_raw_node. by rewrite E.
Qed.
