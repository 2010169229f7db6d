(** * Properties of [Debug] of [cursor::SyntaxNode]: C92 *)
Require Import String.
From Verif Require Import RawFmt PropertiesCursor PropertiesFmt PropertiesWrapGreen.

(** C92.  [Debug] of an untyped syntax node shows its kind and its range, with [{:#?}] over several lines.  It never
    panics, and if the writer fails it reports that *)
Theorem c92_shows sink root p c k cs a b :
  built root -> cursor_at root p = Some c -> tsub (erase root) p = Some (Node k cs) -> trange (erase root) p = Some (a, b) ->
  writes sink (fmt_raw_node c_text_range sink false c) (raw_line k a b) /\
  writes sink (fmt_raw_node c_text_range sink true c) (line_up (raw_lines k a b)).
Proof.
  intros Hb%built_wfg Hc Ht Hr. rewrite (crange_trange root Hb p c Hc) in Hr. injection Hr as <- <-.
  assert (c_kind c = k) as <-. { rewrite (cursor_at_tsub _ _ _ Hc) in Ht. unfold c_kind. destruct (c_green c); by injection Ht. }
  apply (raw_writes c_text_range sink c _ (c_text_range_at root Hb p c Hc)).
Qed.
Print Assumptions c92_shows.
(** in a build without overflow checks the range shown is the true one modulo 2^32; it panics exactly if that ends before it starts *)
Theorem c92_wrapped sink g p k cs : built_rel g -> tsub (erase g) p = Some (Node k cs) ->
  let a := blen (tbefore (erase g) p) in let b := (a + blen (ttext (Node k cs)))%N in
  exists d, r_descend (CRoot g) p = Ok (Some d) /\ erase (c_green d) = Node k cs /\
    if (m32 a <=? m32 b)%N then
      writes sink (fmt_raw_node r_text_range sink false d) (raw_line k (m32 a) (m32 b)) /\
      writes sink (fmt_raw_node r_text_range sink true d) (line_up (raw_lines k (m32 a) (m32 b)))
    else forall alt out, fmt_raw_node r_text_range sink alt d out = Err Panic.
Proof.
  intros H Ht a b. pose proof (c87_ranges g p H) as R. rewrite Ht in R. destruct R as (d&H1&H2&_&_&H3&_). exists d. split; [done|]. split; [done|].
  fold a in H3. fold b in H3. specialize (H3 ltac:(constructor; [done|constructor])).
  assert (c_kind d = k) as <- by (unfold c_kind; destruct (c_green d); cbn [erase] in H2; [by injection H2|discriminate H2]).
  destruct (m32 a <=? m32 b)%N; [exact (raw_writes r_text_range sink d _ H3)|]. intros alt out. unfold fmt_raw_node. by rewrite H3.
Qed.
Print Assumptions c92_wrapped.
(** what is shown tells these things apart *)
Theorem c92_tells k a b k' a' b' : raw_line k a b = raw_line k' a' b' <-> k = k' /\ a = a' /\ b = b'.
Proof. split; [apply raw_line_inj|by intros (->&->&->)]. Qed.
Print Assumptions c92_tells.

(** the second child of a root: a node of kind 62 at 1..3 *)
Example c92_nonvacuous :
  let small := GNode 3 62%N 2%N [(0%N, GTok 2 8%N [98; 99]%N)] in let root := GNode 4 5%N 3%N [(0%N, GTok 1 7%N [97%N]); (1%N, small)] in
  built root /\ trange (erase root) [1] = Some (1, 3)%N /\
  exists c, cursor_at root [1] = Some c /\ 
    fmt_raw_node c_text_range no_fail false c [] = Ok (true, lit "SyntaxNode { kind: SyntaxKind(62), text_range: 1..3 }") /\
    fmt_raw_node c_text_range no_fail true c [] = Ok (true, lit
"SyntaxNode {
    kind: SyntaxKind(
        62,
    ),
    text_range: 1..3,
}").
Proof.
  intros small root. split.
  { assert (Hs : built small). { eapply (built_node 3 62%N [GTok 2 8%N [98; 99]%N]); [|reflexivity]. constructor; [apply (built_token 2 8%N [98; 99]%N); by vm_compute|constructor]. }
    eapply (built_node 4 5%N [GTok 1 7%N [97%N]; small]); [|reflexivity]. constructor; [apply (built_token 1 7%N [97%N]); by vm_compute|by constructor]. }
  split; [by vm_compute|]. eexists. split; [reflexivity|]. split; by vm_compute.
Qed.
Local Opaque ex_big.
(** the root of 6000000003 bytes, in a release build, says that it ends at 1705032707 *)
Example c92_wrapped_nonvacuous : exists g d, built_rel g /\ blen (ttext (erase g)) = 6000000003%N /\ r_descend (CRoot g) [] = Ok (Some d) /\
  fmt_raw_node r_text_range no_fail false d [] = Ok (true, lit "SyntaxNode { kind: SyntaxKind(5), text_range: 0..1705032707 }").
Proof.
  exists ex_over, (CRoot ex_over). split; [exact ex_over_rel|]. split; [simpl; rewrite !blen_app, ex_big_len; reflexivity|]. split; [reflexivity|].
  assert (E : r_text_range (CRoot ex_over) = Ok (TR 0 1705032707)) by reflexivity. unfold fmt_raw_node. rewrite E. cbn [mbind res_bind].
  change (c_kind (CRoot ex_over)) with 5%N. vm_compute. reflexivity.
Qed.
