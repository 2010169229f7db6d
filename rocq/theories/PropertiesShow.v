(** * Theorems: formatting and [SyntaxText] on any tree a client can hold (C60, C61, C62)

    As in PropertiesScript.v, the handle [s] may be into a tree that has been edited by any
    calls before.  [PT s (TR a b)] is the text that [text] of the node at [s] gave when the
    range of that node was [a..b], or a [slice] of it; the tree may have been edited since. *)
From Verif Require Import ShowFacts PropertiesHeap.

(** the start of the proofs below *)
Local Ltac at_root Henv E H :=
  let root := fresh "root" in let c := fresh "c" in
  destruct (sim_root _ Henv _ _ _ E _ _ _ _ _ _ H) as (root&c&Hwf&Hco&->&Hc&->); destruct H as (Hs&Ht&Hx);
  apply cin_at in Hc as [Hc <-]; rewrite ?erase_is_node, <- ?gsize_erase in *.
Local Ltac at_range Hwf Hc Hr := rewrite (crange_trange _ Hwf _ _ Hc) in Hr; injection Hr as <- <-.

(** ** C60: [Debug] and [Display] *)
Theorem c60_dump env prog st os pr sink kfr kdbg sdbg fuel s n m t p x : henv_ok env -> s_run prog s_init = SOk (st, os) ->
  holds st s n m t p x -> is_node x = true -> (forall q, is_Some (tsub x q) -> (Z.of_nat (length q) < 2147483647)%Z) -> 2 * tsize x < fuel ->
  prints env prog st sink (p_debug pr sink kfr kdbg sdbg true fuel s) (dump kfr kdbg sdbg t p).
Proof.
  intros Henv E H Hn Hd Hf. at_root Henv E H. exists (fmt_node pr sink kfr kdbg sdbg true c). split.
  - apply fmt_node_writes; [done..|]. intros r Hr. by apply Hd, elem_of_positions.
  - intros out r Hr. eapply (tracked_ok _ Henv _ _ _ E _ _ _ _ _ _ _ _ Hs); [eapply tr_debug; [exact Ht|done|done|exact Hc|left|done]| |].
    + change (gis_node (c_green c)) with (c_is_node c) in Hn. rewrite Hn. exact Hr.
    + by intros a F [-> ->].
Qed.
Print Assumptions c60_dump.
Theorem c60_too_deep env prog st os sink kfr kdbg sdbg fuel s n m t p x q out : henv_ok env -> s_run prog s_init = SOk (st, os) ->
  holds st s n m t p x -> is_node x = true -> is_Some (tsub x q) -> (2147483647 <= Z.of_nat (length q))%Z -> (forall o1 o2, sink o1 o2 = None) -> 2 * tsize x < fuel ->
  panics env prog (p_debug Checked sink kfr kdbg sdbg true fuel s out).
Proof.
  intros Henv E H Hn Hd Hl Hs' Hf. at_root Henv E H.
  eapply (tracked_panic _ Henv _ _ _ E _ _ _ _ _ _ Hs); [eapply tr_debug; [exact Ht|done|done|exact Hc|left|done]|].
  change (gis_node (c_green c)) with (c_is_node c) in Hn. rewrite Hn. eapply fmt_node_too_deep; [done..| |exact Hl]. by apply elem_of_positions.
Qed.
Print Assumptions c60_too_deep.
(** one line for a node (without [{:#?}]) or a token *)
Theorem c60_line env prog st os pr sink kfr kdbg sdbg alt fuel s n m t p x : henv_ok env -> s_run prog s_init = SOk (st, os) ->
  holds st s n m t p x -> (alt = true -> is_node x = false) -> 2 * tsize x < fuel ->
  prints env prog st sink (p_debug pr sink kfr kdbg sdbg alt fuel s) (elem_line kfr kdbg sdbg t p).
Proof.
  intros Henv E H Hn Hf. at_root Henv E H. exists (if c_is_node c then fmt_node pr sink kfr kdbg sdbg alt c else fmt_token sink kfr kdbg sdbg c). split.
  - destruct (c_is_node c) eqn:En; [|by apply writes_token].
    destruct alt; [unfold c_is_node in En; by rewrite (Hn eq_refl) in En|].
    pose proof (cursor_at_tsub _ _ _ Hc) as Ht'. destruct (writes_head sink kfr kdbg root Hwf _ c _ Hc Ht') as (a&b&Hr&Hw).
    unfold elem_line. rewrite Ht', Hr. unfold c_is_node in En. destruct (c_green c); [|done]. simpl in *. by rewrite app_nil_r.
  - intros out r Hr. eapply (tracked_ok _ Henv _ _ _ E _ _ _ _ _ _ _ _ Hs); [eapply tr_debug; [exact Ht|done|done|exact Hc|left|done]| |].
    + by destruct (c_is_node c).
    + by intros a F [-> ->].
Qed.
Print Assumptions c60_line.
Theorem c60_display env prog st os sink fuel s n m t p x : henv_ok env -> s_run prog s_init = SOk (st, os) ->
  holds st s n m t p x -> 2 * tsize x < fuel ->
  prints env prog st sink (p_display sink fuel fo_default s) (ttext x).
Proof.
  intros Henv E H Hf. at_root Henv E H. exists (if c_is_node c then display_node sink fo_default c else display_token sink fo_default c). split.
  - destruct (c_is_node c) eqn:En.
    + rewrite <- concat_token_texts, <- (map_id (token_texts _)). by eapply display_node_writes.
    + unfold c_is_node in En. unfold display_token, c_text. destruct (c_green c) as [|a k s']; [done|]. apply writes_wstr.
  - intros out r Hr. eapply (tracked_ok _ Henv _ _ _ E _ _ _ _ _ _ _ _ Hs); [eapply tr_display; [exact Ht|done|done|exact Hc|left|done]| |].
    + by destruct (c_is_node c).
    + by intros a F [-> ->].
Qed.
Print Assumptions c60_display.
(** kinds as their number, texts unquoted; tree 0 after its first node has been moved to the end of its last *)
Definition moved : list op := demo ++ [OSplice 4 2 2 [1]].
(** example *)
Definition no_fail (_ _ : str) : option nat := None.
Example c60_nonvacuous : exists st os, s_run moved s_init = SOk (st, os) /\
  holds st 4 0 true (Node 12 [Node 11 []; t_ab; Node 10 [t_ab; Token 2 [99]%N; t10]]) [2] (Node 10 [t_ab; Token 2 [99]%N; t10]) /\
  run_script bump_env moved (p_debug Checked no_fail (fun k => k) dec (fun s => s) true 40 4 []) =
    Ok (true, [49;48;64;50;46;46;56;10; 32;32;49;64;50;46;46;52;32;97;98;10; 32;32;50;64;52;46;46;53;32;99;10;
               32;32;49;48;64;53;46;46;56;10; 32;32;32;32;49;64;53;46;46;55;32;97;98;10; 32;32;32;32;50;64;55;46;46;56;32;99;10]%N) /\
  run_script bump_env moved (p_debug Checked no_fail (fun k => k) dec (fun s => s) false 40 5 []) = Ok (true, [49;64;53;46;46;55;32;97;98]%N) /\
  run_script bump_env moved (p_display no_fail 40 fo_default 0 []) = Ok (true, [97;98;97;98;99;97;98;99]%N) /\
  run_script bump_env moved (p_display (fun out _ => if 4 <? length out then Some 1 else None) 40 fo_default 0 []) = Ok (false, [97;98;97;98;99;97]%N).
Proof. do 2 eexists. split; [by vm_compute|]. split_and!; by vm_compute. Qed.

(** ** C61: texts *)
Theorem c61_text env prog st os s n m t p x a b : henv_ok env -> s_run prog s_init = SOk (st, os) ->
  holds st s n m t p x -> trange t p = Some (a, b) ->
  outcome env prog st (p_text s) (fun t' F => pt_range t' = TR a b /\ F = [(pt_node t', @pair nat pos n p)]).
Proof.
  intros Henv E H Hr. at_root Henv E H. at_range Hwf Hc Hr.
  eapply (tracked_ok _ Henv _ _ _ E _ _ _ _ _ _ _ _ Hs); [eapply tr_text; [exact Ht|done|exact Hc|left]|unfold st_new; rewrite (c_text_range_at root Hwf _ _ Hc); done|].
  intros a F [-> ->]. done.
Qed.
Print Assumptions c61_text.
Local Open Scope N_scope.
(** the string of a text is what is at its range in the present text of its node, as far as
    there is any; the ends of the range have to be char boundaries *)
Theorem c61_to_string env prog st os fuel s n m t p x a b o e : henv_ok env -> s_run prog s_init = SOk (st, os) ->
  holds st s n m t p x -> trange t p = Some (o, e) -> a <= b -> (2 * tsize x < fuel)%nat ->
  let lo := N.min (a - o) (blen (ttext x)) in let hi := N.min (b - o) (blen (ttext x)) in
  (forall y, is_slice (ttext x) lo hi y -> outcome env prog st (p_to_string fuel (PT s (TR a b))) (fun r F => r = y /\ F = [])) /\
  ((forall y, ~ is_slice (ttext x) lo hi y) -> panics env prog (p_to_string fuel (PT s (TR a b)))).
Proof.
  intros Henv E H Hr Hab Hf lo hi. at_root Henv E H. at_range Hwf Hc Hr. subst lo hi.
  pose proof (tr_to_string _ (s_greens st) (s_leaked st) n m root Ht Hwf Hco fuel (PT s (TR a b)) c _ Hc (elem_of_list_here _ []) Hf) as Htr. cbn [pt_range] in Htr.
  rewrite (stale_to_string root Hwf Hco a b c Hc Hab) in Htr. split.
  - intros y Hy%is_slice_iff. eapply (tracked_ok _ Henv _ _ _ E _ _ _ _ _ _ _ _ Hs); [exact Htr|exact Hy|]. by intros ? ? [-> ->].
  - intros Hno. eapply (tracked_panic _ Henv _ _ _ E _ _ _ _ _ _ Hs); [exact Htr|]. unfold clamped.
    match goal with |- ?z = _ => destruct z as [y|e'] eqn:Ey end; [by destruct (Hno y); apply is_slice_iff|]. by rewrite (str_slice_err _ _ _ _ Ey).
Qed.
Print Assumptions c61_to_string.
(** in particular: the whole text if the tree is still as it was *)
Theorem c61_fresh env prog st os fuel s n m t p x a b : henv_ok env -> s_run prog s_init = SOk (st, os) ->
  holds st s n m t p x -> trange t p = Some (a, b) -> (2 * tsize x < fuel)%nat ->
  outcome env prog st (p_to_string fuel (PT s (TR a b))) (fun r F => r = ttext x /\ F = []).
Proof.
  intros Henv E H Hr Hf. assert (Hb : b = a + blen (ttext x)).
  { destruct (sim_root _ Henv _ _ _ E _ _ _ _ _ _ H) as (root&c&Hwf&_&->&Hc&->). rewrite (crange_trange _ Hwf _ _ Hc) in Hr. by injection Hr as <- <-. }
  eapply (c61_to_string env prog st os fuel s n m t p x a b a b Henv E H Hr); [lia|done|]. apply is_slice_iff.
  replace (N.min (a - a) (blen (ttext x))) with 0 by lia. replace (N.min (b - a) (blen (ttext x))) with (blen (ttext x)) by lia. apply str_slice_full.
Qed.
Print Assumptions c61_fresh.
Theorem c61_slice env prog st os pr s n m t p x a b rs re : henv_ok env -> s_run prog s_init = SOk (st, os) ->
  holds st s n m t p x -> a <= b -> b <= u32_max -> default 0 rs <= u32_max -> default 0 re <= u32_max ->
  let s0 := default 0 rs in let e0 := default (b - a) re in
  (s0 <= e0 /\ e0 <= b - a ->
   outcome env prog st (p_slice pr (PT s (TR a b)) rs re) (fun t' F => pt_range t' = TR (a + s0) (a + e0) /\ F = [(pt_node t', @pair nat pos n p)])) /\
  (~ (s0 <= e0 /\ e0 <= b - a) -> panics env prog (p_slice pr (PT s (TR a b)) rs re)).
Proof.
  intros Henv E H Hab Hb Hrs Hre s0 e0. at_root Henv E H.
  pose proof (tr_slice (s_trees st) (s_greens st) (s_leaked st) n root pr (PT s (TR a b)) rs re c _ Hc (elem_of_list_here _ [])) as Htr. cbn [pt_range pt_node] in Htr.
  rewrite (st_slice_gen pr (ST c (TR a b)) rs re Hab Hb Hrs Hre) in Htr. unfold st_len, range_len in Htr. cbn [st_range st_node rstart rend] in Htr. fold s0 e0 in Htr. split.
  - intros [H1%N.leb_le H2%N.leb_le]. eapply (tracked_ok _ Henv _ _ _ E _ _ _ _ _ _ _ _ Hs); [exact Htr|by rewrite H1, H2|]. by intros ? ? [-> ->].
  - intros Hno. eapply (tracked_panic _ Henv _ _ _ E _ _ _ _ _ _ Hs); [exact Htr|]. destruct (N.leb_spec s0 e0); [|done]. destruct (N.leb_spec e0 (b - a)); [|done]. by destruct Hno.
Qed.
Print Assumptions c61_slice.
(** the searches are in that string *)
Theorem c61_searches env prog st os fuel s n m t p x a b o e y ch off rhs : henv_ok env -> s_run prog s_init = SOk (st, os) ->
  holds st s n m t p x -> trange t p = Some (o, e) -> a <= b -> (2 * tsize x < fuel)%nat ->
  is_slice (ttext x) (N.min (a - o) (blen (ttext x))) (N.min (b - o) (blen (ttext x))) y ->
  outcome env prog st (p_find_char fuel (PT s (TR a b)) ch) (fun r F => F = [] /\
    match r with Some i => exists l l', y = l ++ ch :: l' /\ blen l = i /\ ch ∉ l | None => ch ∉ y end) /\
  outcome env prog st (p_contains_char fuel (PT s (TR a b)) ch) (fun r F => F = [] /\ (r = true <-> ch ∈ y)) /\
  outcome env prog st (p_eq_str fuel (PT s (TR a b)) rhs) (fun r F => F = [] /\ (r = true <-> y = rhs)) /\
  (blen y <= off -> outcome env prog st (p_char_at fuel (PT s (TR a b)) off) (fun r F => F = [] /\ r = None)) /\
  (forall l c l', y = l ++ c :: l' -> blen l = off -> outcome env prog st (p_char_at fuel (PT s (TR a b)) off) (fun r F => F = [] /\ r = Some c)) /\
  (off < blen y -> (forall l l', y = l ++ l' -> blen l <> off) -> panics env prog (p_char_at fuel (PT s (TR a b)) off)).
Proof.
  intros Henv E H Hr Hab Hf Hy. at_root Henv E H. at_range Hwf Hc Hr. apply is_slice_iff in Hy. change (clamped c a b = Ok y) in Hy.
  assert (Hin : (s, (n, c_path c)) ∈ [(s, (n, c_path c))]) by left.
  pose proof (tr_char_at _ (s_greens st) (s_leaked st) n m root Ht Hwf Hco fuel (PT s (TR a b)) off c _ Hc Hin Hf) as Hat. cbn [pt_range] in Hat.
  rewrite (stale_char_at root Hwf Hco a b c y off Hc Hab Hy) in Hat. split_and!.
  - eapply (tracked_ok _ Henv _ _ _ E _ _ _ _ _ _ _ _ Hs); [by eapply tr_find_char|by apply (stale_find root Hwf Hco a b c y)|]. intros r F [-> ->]. split; [done|].
    destruct (str_find y ch) eqn:Ef; [by apply str_find_Some|by apply str_find_None].
  - eapply (tracked_ok _ Henv _ _ _ E _ _ _ _ _ _ _ _ Hs); [by eapply tr_contains_char|by apply (stale_contains root Hwf Hco a b c y)|]. intros r F [-> ->]. split; [done|]. apply str_contains_iff.
  - eapply (tracked_ok _ Henv _ _ _ E _ _ _ _ _ _ _ _ Hs); [by eapply tr_eq_str|by apply (stale_eq_str root Hwf Hco a b c y)|]. intros r F [-> ->]. split; [done|]. apply bool_decide_eq_true.
  - intros Hl. eapply (tracked_ok _ Henv _ _ _ E _ _ _ _ _ _ _ _ Hs); [exact Hat|unfold char_from; apply N.leb_le in Hl; by rewrite Hl|]. by intros r F [-> ->].
  - intros l d l' -> <-. eapply (tracked_ok _ Henv _ _ _ E _ _ _ _ _ _ _ _ Hs); [exact Hat| |by intros r F [-> ->]]. unfold char_from. rewrite blen_app. simpl. pose proof (width_pos d).
    destruct (N.leb_spec (blen l + (width d + blen l')) (blen l)); [lia|]. rewrite (proj2 (str_from_Ok _ _ (d :: l'))); [done|]. by exists l.
  - intros Hl Hno. eapply (tracked_panic _ Henv _ _ _ E _ _ _ _ _ _ Hs); [exact Hat|]. unfold char_from. destruct (N.leb_spec (blen y) off); [lia|].
    destruct (str_from y off) as [r|e'] eqn:Ef; [|by rewrite (str_from_err _ _ _ Ef)]. apply str_from_Ok in Ef as (l&->&<-). by destruct (Hno l r).
Qed.
Print Assumptions c61_searches.
(** the text of node 4 (range 5..8, "abc") taken before the first node is detached: what was
    at 5..8 is now at 2..5, so all that is left of the text is empty; [len] is still 3 *)
Definition taken {A} (prog : list op) (s : nat) (ops : list op) (p : ptext -> script A) : res A :=
  run_script bump_env prog (t ← p_text s; _ ← p_ops ops; p t).
Example c61_nonvacuous : holds demo_st 4 0 true t12 [3%nat] t10 /\ trange t12 [3%nat] = Some (5, 8) /\ is_slice (ttext t10) 0 3 (ttext t10) /\
  taken demo 4 [] (p_to_string 40) = Ok [97; 98; 99] /\
  taken demo 4 [ODetach 1] (p_to_string 40) = Ok [] /\ taken demo 0 [ODetach 1] (p_to_string 40) = Ok [97; 98; 97; 98; 99] /\
  taken demo 0 [] (fun t => t' ← p_slice Checked t (Some 1) (Some 6); p_to_string 40 t') = Ok [98; 99; 97; 98; 97] /\
  taken demo 0 [] (fun t => p_slice Checked t (Some 1) (Some 9)) = Err Panic /\
  taken demo 0 [ODetach 1] (fun t => t' ← p_slice Checked t (Some 1) (Some 6); p_find_char 40 t' 99) = Ok (Some 3) /\
  taken demo 0 [ODetach 1] (fun t => p_char_at 40 t 4) = Ok (Some 99) /\ taken demo 0 [ODetach 1] (fun t => p_eq_str 40 t [97; 98; 97; 98; 99]) = Ok true.
Proof. split_and!; try (by vm_compute). exists [], []. by vm_compute. Qed.

(** ** C62: comparing texts *)
(** right if each text is as long as it was when it was taken *)
Theorem c62_eq_partial env prog st os fuel s1 n1 m1 t1 p1 x1 a1 b1 o1 e1 y1 s2 n2 m2 t2 p2 x2 a2 b2 o2 e2 y2 : henv_ok env -> s_run prog s_init = SOk (st, os) ->
  holds st s1 n1 m1 t1 p1 x1 -> trange t1 p1 = Some (o1, e1) -> a1 <= b1 -> is_slice (ttext x1) (N.min (a1 - o1) (blen (ttext x1))) (N.min (b1 - o1) (blen (ttext x1))) y1 ->
  holds st s2 n2 m2 t2 p2 x2 -> trange t2 p2 = Some (o2, e2) -> a2 <= b2 -> is_slice (ttext x2) (N.min (a2 - o2) (blen (ttext x2))) (N.min (b2 - o2) (blen (ttext x2))) y2 ->
  (2 * tsize x1 + 2 * tsize x2 < fuel)%nat ->
  outcome env prog st (p_text_eq fuel (PT s1 (TR a1 b1)) (PT s2 (TR a2 b2))) (fun r F => F = [] /\
    (blen y1 = blen y2 -> (r = true <-> b1 - a1 = b2 - a2 /\ y1 = y2)) /\
    (blen y1 = b1 - a1 -> blen y2 = b2 - a2 -> (r = true <-> y1 = y2)) /\
    (r = true -> b1 - a1 = b2 - a2 /\ (y1 `prefix_of` y2 \/ y2 `prefix_of` y1))).
Proof.
  intros Henv E H1 Hr1 Hab1 Hy1 H2 Hr2 Hab2 Hy2 Hf.
  assert (Hheld : exists F0 L, held st ≡ₚ F0 ++ L /\ (s1, @pair nat pos n1 p1) ∈ F0 /\ (s2, @pair nat pos n2 p2) ∈ F0).
  { destruct H1 as [H1 _], H2 as [H2 _]. destruct (decide (s1 = s2)) as [<-|Hne].
    - rewrite H1 in H2. injection H2 as <- <-. destruct (held_one _ _ _ _ H1) as [L HL]. exists [(s1, (n1, p1))], L. split; [done|]. split; left.
    - destruct (held_two _ _ _ _ _ Hne H1 H2) as [L HL]. exists [(s1, (n1, p1)); (s2, (n2, p2))], L. split; [done|]. split; [left|right; left]. }
  destruct Hheld as (F0&L&HL&I1&I2).
  destruct (sim_root _ Henv _ _ _ E _ _ _ _ _ _ H1) as (r1&c1&W1&C1&->&Hc1&->). destruct (sim_root _ Henv _ _ _ E _ _ _ _ _ _ H2) as (r2&c2&W2&C2&->&Hc2&->).
  apply cin_at in Hc1 as [Hc1 <-]. apply cin_at in Hc2 as [Hc2 <-]. rewrite <- !gsize_erase in Hf.
  rewrite (crange_trange _ W1 _ _ Hc1) in Hr1. injection Hr1 as <- <-. rewrite (crange_trange _ W2 _ _ Hc2) in Hr2. injection Hr2 as <- <-.
  apply is_slice_iff in Hy1. change (clamped c1 a1 b1 = Ok y1) in Hy1. apply is_slice_iff in Hy2. change (clamped c2 a2 b2 = Ok y2) in Hy2.
  destruct (stale_eqb r1 r2 a1 b1 a2 b2 c1 c2 y1 y2 W1 C1 W2 C2 Hc1 Hc2 Hab1 Hab2 Hy1 Hy2) as (b&Hb&Hv1&Hv2).
  pose proof (tr_text_eq _ (s_greens st) (s_leaked st) n1 m1 r1 (proj1 (proj2 H1)) W1 C1 n2 m2 r2 (proj1 (proj2 H2)) W2 C2 fuel (PT s1 (TR a1 b1)) (PT s2 (TR a2 b2)) c1 c2 F0 Hc1 I1 Hc2 I2 Hf) as Htr.
  cbn [pt_range] in Htr. rewrite Hb in Htr. apply (tracked_held env Henv prog st os E F0 L _ (Ok b) _ _ HL Htr). intros r F [-> ->].
  assert (Hv : blen y1 = blen y2 -> b = true <-> b1 - a1 = b2 - a2 /\ y1 = y2).
  { intros Hl. rewrite (Hv1 Hl), andb_true_iff, N.eqb_eq, bool_decide_eq_true. done. }
  split_and!; [done|exact Hv| |done]. intros L1 L2. split.
  - intros Hbt. destruct (Hv2 Hbt) as [Hl _]. apply Hv; [lia|done].
  - intros ->. apply Hv; [done|]. split; [lia|done].
Qed.
Print Assumptions c62_eq_partial.
(** wrong otherwise: of two texts taken as "abc", one has become "ab"; they are still equal,
    also with the sides exchanged. *)
Definition eq_demo : list op := demo ++ [OGreenToken 3 [97; 98; 99]; OGreenNode 13 [5%nat]; ORoot false 6; ONav NLastChildOrToken 6].
(** example *)
Definition eq_after (prog : list op) (s1 s2 : nat) (ops : list op) : res (bool * bool * str * str) :=
  run_script bump_env prog (t1 ← p_text s1; t2 ← p_text s2; _ ← p_ops ops; b1 ← p_text_eq 40 t1 t2; b2 ← p_text_eq 40 t2 t1; x ← p_to_string 40 t1; y ← p_to_string 40 t2; PRet (b1, b2, x, y)).
Theorem c62_eq_refuted : exists env prog ops s1 s2 st os x1 x2 x y, henv_ok env /\ s_run prog s_init = SOk (st, os) /\
  holds st s1 1 true t10 [] x1 /\ holds st s2 3 false x2 [] x2 /\ ttext x1 = ttext x2 /\
  run_script env prog (t1 ← p_text s1; t2 ← p_text s2; _ ← p_ops ops; b1 ← p_text_eq 40 t1 t2; b2 ← p_text_eq 40 t2 t1; x ← p_to_string 40 t1; y ← p_to_string 40 t2; PRet (b1, b2, x, y)) =
    Ok (true, true, x, y) /\ x <> y.
Proof.
  exists bump_env, eq_demo, [ODetach 10], 6%nat, 9%nat. do 2 eexists. exists t10, (Node 13 [Token 3 [97; 98; 99]]), [97; 98], [97; 98; 99].
  split; [exact demo_env|]. split; [by vm_compute|]. split_and!; by vm_compute.
Qed.
Print Assumptions c62_eq_refuted.
(** nor need it be symmetric: the other text in two tokens *)
Theorem c62_symmetric_refuted : exists env prog ops s1 s2 st os, henv_ok env /\ s_run prog s_init = SOk (st, os) /\
  holds st s1 1 true t10 [] t10 /\ holds st s2 2 false t12 [0%nat] t10 /\
  run_script env prog (t1 ← p_text s1; t2 ← p_text s2; _ ← p_ops ops; b1 ← p_text_eq 40 t1 t2; b2 ← p_text_eq 40 t2 t1; PRet (b1, b2)) = Ok (false, true).
Proof.
  exists bump_env, eq_demo, [ODetach 10], 6%nat, 8%nat. do 2 eexists. split; [exact demo_env|]. split; [by vm_compute|]. split_and!; by vm_compute.
Qed.
Print Assumptions c62_symmetric_refuted.
Example c62_nonvacuous : eq_after eq_demo 6 9 [] = Ok (true, true, [97; 98; 99], [97; 98; 99]) /\
  eq_after eq_demo 6 9 [ODetach 10] = Ok (true, true, [97; 98], [97; 98; 99]) /\
  eq_after eq_demo 6 8 [] = Ok (true, true, [97; 98; 99], [97; 98; 99]) /\ eq_after eq_demo 6 8 [ODetach 10] = Ok (false, true, [97; 98], [97; 98; 99]) /\
  eq_after eq_demo 0 7 [] = Ok (true, true, ttext t12, ttext t12) /\ eq_after eq_demo 0 9 [] = Ok (false, false, ttext t12, [97; 98; 99]).
Proof. by vm_compute. Qed.
