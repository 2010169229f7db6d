(** * Properties of [Debug] of [cursor::SyntaxNode] on any tree a client can hold: C92 *)
Require Import String.
From Verif Require Import RawShow PropertiesHeap PropertiesShow PropertiesFmt.

(** the handle [s] may be into a tree that has been edited by any calls before: the range shown is the one the node has now *)
Theorem c92_edited env prog st os sink s n m t p k cs a b : henv_ok env -> s_run prog s_init = SOk (st, os) ->
  holds st s n m t p (Node k cs) -> trange t p = Some (a, b) ->
  prints env prog st sink (p_debug_raw sink false s) (raw_line k a b) /\
  prints env prog st sink (p_debug_raw sink true s) (line_up (raw_lines k a b)).
Proof.
  intros Henv E H Hr. destruct (sim_root _ Henv _ _ _ E _ _ _ _ _ _ H) as (root&c&Hwf&Hco&->&Hc&Hx). destruct H as (Hs&Ht&_).
  apply cin_at in Hc as [Hc <-]. rewrite (crange_trange _ Hwf _ _ Hc) in Hr. injection Hr as <- <-.
  assert (c_kind c = k) as <- by (unfold c_kind; destruct (c_green c); cbn [erase] in Hx; [by injection Hx|discriminate Hx]).
  pose proof (raw_writes c_text_range sink c _ (c_text_range_at root Hwf _ c Hc)) as [W1 W2].
  split; [exists (fmt_raw_node c_text_range sink false c)|exists (fmt_raw_node c_text_range sink true c)]; (split; [done|]);
    (intros out r Hr; eapply (tracked_ok _ Henv _ _ _ E _ _ _ _ _ _ _ _ Hs); [eapply tr_debug_raw; [exact Ht|done|exact Hc|left]|exact Hr|by intros a F [-> ->]]).
Qed.
Print Assumptions c92_edited.

(** the node was at 5..8; a sibling before it has become its last child, and it is now at 2..8 *)
Example c92_edited_nonvacuous : exists st os, s_run moved s_init = SOk (st, os) /\
  holds st 4 0 true (Node 12 [Node 11 []; t_ab; Node 10 [t_ab; Token 2 [99]%N; t10]]) [2] (Node 10 [t_ab; Token 2 [99]%N; t10]) /\
  trange (Node 12 [Node 11 []; t_ab; Node 10 [t_ab; Token 2 [99]%N; t10]]) [2] = Some (2, 8)%N /\
  run_script bump_env moved (p_debug_raw no_fail false 4 []) = Ok (true, lit "SyntaxNode { kind: SyntaxKind(10), text_range: 2..8 }").
Proof. do 2 eexists. split; [by vm_compute|]. split_and!; by vm_compute. Qed.
