(** * Properties of [Debug] of green elements: C91 *)
Require Import String.
From Verif Require Import GreenFmtFacts PropertiesFmt PropertiesWrapGreen.

(** C91.  [Debug] of a green node shows its kind, the length of its text and the number of its children; of a green token its kind and
    text; of a green element the same inside [Node(..)] or [Token(..)].  With [{:#?}] it shows the same, one field a line.
    It never panics, and if the writer fails it reports that *)
Theorem c91_shows sink sdbg g : built g ->
  let t := erase g in let len := blen (ttext t) in
  writes sink (fmt_green sink sdbg false g) (green_line sdbg t len) /\
  writes sink (fmt_green_element sink sdbg false g) (variant t ++ lit "(" ++ green_line sdbg t len ++ lit ")") /\
  (one_line sdbg ->
    writes sink (fmt_green sink sdbg true g) (line_up (green_lines sdbg t len)) /\
    writes sink (fmt_green_element sink sdbg true g) (line_up (in_tuple (variant t) (green_lines sdbg t len)))).
Proof. intros Hb%built_wfg t len. pose proof (green_writes sink sdbg g) as H. by rewrite (wfg_glen g Hb) in H. Qed.
Print Assumptions c91_shows.
(** in a build without overflow checks, the length shown of a node is the true one modulo 2^32 *)
Theorem c91_wrapped sink sdbg g : built_rel g ->
  let t := erase g in let len := (blen (ttext t) mod 4294967296)%N in
  writes sink (fmt_green sink sdbg false g) (green_line sdbg t len) /\
  writes sink (fmt_green_element sink sdbg false g) (variant t ++ lit "(" ++ green_line sdbg t len ++ lit ")") /\
  (one_line sdbg ->
    writes sink (fmt_green sink sdbg true g) (line_up (green_lines sdbg t len)) /\
    writes sink (fmt_green_element sink sdbg true g) (line_up (in_tuple (variant t) (green_lines sdbg t len)))).
Proof.
  intros Hb%built_rel_wfw t len. pose proof (green_writes sink sdbg g) as H. subst t len. destruct g as [a k tl cs|a k s]; [|exact H].
  pose proof (wfw_text_len _ Hb) as E. cbn in E. injection E as E.
  assert (El : (blen (ttext (erase (GNode a k tl cs))) mod 4294967296)%N = tl) by (symmetry; exact E). rewrite El. exact H.
Qed.
Print Assumptions c91_wrapped.
(** what is shown tells these things apart *)
Theorem c91_tells_nodes k len n k' len' n' : node_line k len n = node_line k' len' n' <-> k = k' /\ len = len' /\ n = n'.
Proof. split; [apply node_line_inj|by intros (->&->&->)]. Qed.
Print Assumptions c91_tells_nodes.
Theorem c91_tells_tokens k s k' s' : token_line k s = token_line k' s' <-> k = k' /\ s = s'.
Proof. split; [apply token_line_inj|by intros (->&->)]. Qed.
Print Assumptions c91_tells_tokens.

(** a node of kind 62 with two tokens, "a" and "bc"; strings are shown in quotes, without newlines *)
Example c91_nonvacuous :
  let sdbg (s : str) : str := [34%N] ++ List.filter (fun c => negb (c =? 10)%N) s ++ [34%N] in
  let token := GTok 2 8%N [98; 99]%N in let node := GNode 3 62%N 3%N [(0%N, GTok 1 7%N [97%N]); (1%N, token)] in
  built token /\ built node /\ one_line sdbg /\
  fmt_green no_fail sdbg false node [] = Ok (true, lit "GreenNode { kind: SyntaxKind(62), text_len: 3, n_children: 2 }") /\
  fmt_green_element no_fail sdbg true node [] = Ok (true, lit
"Node(
    GreenNode {
        kind: SyntaxKind(
            62,
        ),
        text_len: 3,
        n_children: 2,
    },
)") /\
  fmt_green no_fail sdbg false token [] = Ok (true, lit "GreenToken { kind: SyntaxKind(8), text: ""bc"" }").
Proof.
  intros sdbg token node. assert (Ht : built token) by (apply (built_token 2 8%N [98; 99]%N); by vm_compute).
  split; [exact Ht|]. split.
  { eapply (built_node 3 62%N [GTok 1 7%N [97%N]; token]); [|reflexivity]. constructor; [apply (built_token 1 7%N [97%N]); by vm_compute|by constructor]. }
  split_and!; [|by vm_compute..]. intros s. split; [done|]. unfold sdbg. rewrite !elem_of_app, !elem_of_list_singleton. intros [?|[H|?]]; [done| |done].
  apply elem_of_list_In, filter_In in H as [_ H]. done.
Qed.
Local Opaque ex_big.
(** a node of 6000000003 bytes, in a release build *)
Example c91_wrapped_nonvacuous : exists g, built_rel g /\ blen (ttext (erase g)) = 6000000003%N /\
  forall sdbg, fmt_green no_fail sdbg false g [] = Ok (true, lit "GreenNode { kind: SyntaxKind(5), text_len: 1705032707, n_children: 3 }").
Proof.
  assert (G : forall sdbg a x y z, fmt_green no_fail sdbg false (GNode a 5%N 1705032707%N [x; y; z]) [] =
    Ok (true, lit "GreenNode { kind: SyntaxKind(5), text_len: 1705032707, n_children: 3 }")) by (intros; vm_compute; reflexivity).
  assert (H : blen (ttext (erase ex_over)) = 6000000003%N) by (simpl; rewrite !blen_app, ex_big_len; reflexivity).
  assert (E : ex_over = GNode 9 5%N 1705032707%N (gchildren ex_over)) by reflexivity.
  assert (L : exists x y z, gchildren ex_over = [x; y; z]) by (eexists _, _, _; reflexivity). destruct L as (x&y&z&L). rewrite L in E.
  exists ex_over. split; [exact ex_over_rel|]. split; [exact H|]. intros sdbg. rewrite E. apply G.
Qed.
