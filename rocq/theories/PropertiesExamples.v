(** * Properties of the example parsers (C51, C52, C54) *)
From Verif Require Import SexpFacts MathFacts PropertiesBuilder.

(** ** C51: the tutorial parser *)
(** The tree is the one of the stack machine, whatever the tokens; the only failure is the
    builder's, for more than 2^32-1 bytes of text. *)
Theorem c51_parse env c ts :
  cenv_ok env -> cache_reachable env Checked c -> Forall (fun t => (t.1 <= ERROR)%N) ts ->
  if (blen (toks_text ts) <=? u32_max)%N
  then exists g, parse env Checked c ts = Ok (g, sx_errs ts) /\ erase g = sx_tree ts
  else parse env Checked c ts = Err Panic.
Proof.
  intros Henv Hc Hok. destruct (parse_spec env Checked c ts Hok) as [Hn Hp]. rewrite Hp.
  pose proof (c07_replay env c (sx_tree ts) Henv Hc Hn) as H. rewrite sx_tree_text in H.
  destruct (blen (toks_text ts) <=? u32_max)%N; [|by rewrite H].
  destruct H as (g&->&Hg). exists g. done.
Qed.
Print Assumptions c51_parse.
(** nothing is lost: the leaves of the tree are the tokens, and its text their text *)
Theorem c51_lossless ts : ttokens (sx_tree ts) = ts /\ ttext (sx_tree ts) = toks_text ts.
Proof. split; [apply sx_tree_tokens|apply sx_tree_text]. Qed.
Print Assumptions c51_lossless.
(** errors are reported exactly for unbalanced parentheses *)
Theorem c51_errors ts : sx_errs ts = [] <-> paren_ok 0 ts = true.
Proof.
  unfold sx_errs. destruct (sx_run_errs ts [] [] []) as (e&->&He). exact He.
Qed.
Print Assumptions c51_errors.
(** from source text to tree: if the lexer's pieces make up the text, so does the tree *)
Theorem c51_text env c text lexed ts :
  cenv_ok env -> cache_reachable env Checked c ->
  lex text lexed = Ok ts -> fold_right N.add 0%N (map fst lexed) = blen text -> (blen text <= u32_max)%N ->
  exists g errs, parse env Checked c ts = Ok (g, errs) /\ gtext g = text /\ green_text_len g = Ok (blen text).
Proof.
  intros Henv Hc Hl Hsum Hb. apply lex_spec in Hl as (->&Hok&q&->).
  assert (q = []) as ->.
  { apply blen_0. rewrite blen_app in Hsum.
    assert (fold_right N.add 0%N (map fst (map lexeme ts)) = blen (toks_text ts)) as E.
    { clear. unfold toks_text. induction ts as [|[k s] ts IH]; simpl; [done|]. rewrite IH, blen_app. done. }
    lia. }
  rewrite app_nil_r in *. pose proof (c51_parse env c ts Henv Hc Hok) as H. rewrite (proj2 (N.leb_le _ _)) in H by done.
  destruct H as (g&Hp&Hg). exists g, (sx_errs ts). split; [done|].
  assert (Ht : gtext g = toks_text ts) by (unfold gtext; by rewrite Hg, sx_tree_text). split; [done|].
  destruct (parse_spec env Checked c ts Hok) as [_ Hp']. rewrite Hp' in Hp.
  apply res_bind_ok in Hp as (g'&Hb'&E). injection E as ->.
  destruct (b_build_wf _ _ _ _ _ Henv Hc Hb') as (Hwf&_). rewrite wfg_text_len by (by apply Hwf). by rewrite Ht.
Qed.
Print Assumptions c51_text.
(** and the lexing step succeeds exactly on lengths that cut the text at character boundaries *)
Theorem c51_lex text lexed ts :
  lex text lexed = Ok ts <->
  lexed = map (fun t => (blen t.2, t.1)) ts /\ Forall (fun t => (t.1 <= ERROR)%N) ts /\ exists q, text = toks_text ts ++ q.
Proof. exact (lex_spec text lexed ts). Qed.
Print Assumptions c51_lex.

(** "(+ (* 15 2) 62)" *)
Definition ex_sexp : list (kind * str) :=
  [(0, [40]); (2, [43]); (3, [32]); (0, [40]); (2, [42]); (3, [32]); (2, [49; 53]); (3, [32]); (2, [50]); (1, [41]);
   (3, [32]); (2, [54; 50]); (1, [41])]%N.
Example c51_nonvacuous :
  Forall (fun t => (t.1 <= ERROR)%N) ex_sexp /\
  sx_tree ex_sexp = Node ROOT [Node LIST [
    Token L_PAREN [40]; Node ATOM [Token WORD [43]]; Token WHITESPACE [32];
    Node LIST [Token L_PAREN [40]; Node ATOM [Token WORD [42]]; Token WHITESPACE [32]; Node ATOM [Token WORD [49; 53]];
               Token WHITESPACE [32]; Node ATOM [Token WORD [50]]; Token R_PAREN [41]];
    Token WHITESPACE [32]; Node ATOM [Token WORD [54; 50]]; Token R_PAREN [41]]]%N /\
  sx_errs ex_sexp = [] /\ (blen (toks_text ex_sexp) <=? u32_max)%N = true /\
  match parse ex_env Checked cache_empty ex_sexp with Ok (g, e) => erase g = sx_tree ex_sexp /\ e = [] | Err _ => False end /\
  lex (toks_text ex_sexp) (map (fun t => (blen t.2, t.1)) ex_sexp) = Ok ex_sexp.
Proof. vm_compute. repeat split; repeat constructor; discriminate. Qed.
(** ") a (" : both kinds of errors *)
Example c51_nonvacuous_errors :
  let ts := [(1, [41]); (2, [97]); (0, [40])]%N in
  sx_tree ts = Node ROOT [Node ERROR [Token R_PAREN [41]]; Node ATOM [Token WORD [97]]; Node LIST [Token L_PAREN [40]]]%N /\
  sx_errs ts = [EUnmatched; EExpected] /\ paren_ok 0 ts = false.
Proof. by vm_compute. Qed.

(** ** C54: evaluation of the parsed tree *)
(** Parsing and evaluating an expression, however it is spaced, gives its value. *)
Theorem c54_eval env c pr parse_i64 es ts :
  cenv_ok env -> cache_reachable env Checked c ->
  shown_all es ts -> Forall (fun t => (t.1 <= ERROR)%N) ts -> (blen (toks_text ts) <= u32_max)%N ->
  exists g, parse env Checked c ts = Ok (g, []) /\ eval_root pr parse_i64 g = mapM_res (value pr parse_i64) es.
Proof.
  intros Henv Hc Hs Hok Hb. pose proof (c51_parse env c ts Henv Hc Hok) as H. rewrite (proj2 (N.leb_le _ _)) in H by done.
  destruct H as (g&Hp&Hg). exists g.
  destruct (parse_spec env Checked c ts Hok) as [_ Hp']. rewrite Hp' in Hp. apply res_bind_ok in Hp as (g'&Hb'&E). injection E as ->.
  destruct (b_build_wf _ _ _ _ _ Henv Hc Hb') as (Hwf&_).
  destruct (shown_eval pr parse_i64 es ts g Hs (Hwf eq_refl) Hg) as [He Hev]. rewrite Hp', Hb'. cbn. by rewrite He.
Qed.
Print Assumptions c54_eval.
(** On any input, also a malformed one, evaluation ends, and does what can be read off the
    tree; a panic is one of [op_eval] (overflow): no [unreachable!] is reached. *)
Theorem c54_total env c pr parse_i64 ts g errs :
  cenv_ok env -> cache_reachable env Checked c -> Forall (fun t => (t.1 <= ERROR)%N) ts ->
  parse env Checked c ts = Ok (g, errs) ->
  eval_root pr parse_i64 g = mapM_res (fun t => t_eval pr parse_i64 (tsize t) t) (sub_sexps (sx_tree ts)) /\
  eval_root pr parse_i64 g <> Err UB /\ eval_root pr parse_i64 g <> Err Diverge.
Proof.
  intros Henv Hc Hok Hp. pose proof (c51_parse env c ts Henv Hc Hok) as H.
  destruct (blen (toks_text ts) <=? u32_max)%N; [|congruence]. destruct H as (g2&H2&Hg). rewrite H2 in Hp. injection Hp as <- _.
  destruct (parse_spec env Checked c ts Hok) as [_ Hp']. rewrite Hp' in H2. apply res_bind_ok in H2 as (g'&Hb'&E). injection E as ->.
  destruct (b_build_wf _ _ _ _ _ Henv Hc Hb') as (Hwf&_).
  assert (Hev : eval_root pr parse_i64 g2 = mapM_res (fun t => t_eval pr parse_i64 (tsize t) t) (sub_sexps (sx_tree ts))).
  { rewrite <- Hg. apply eval_root_spec; [by apply Hwf|rewrite Hg; apply sx_tree_atoms|rewrite Hg; apply sx_tree_root]. }
  rewrite Hev. split; [done|]. destruct (mapM_t_eval pr parse_i64 (sub_sexps (sx_tree ts))) as (?&?&_). done.
Qed.
Print Assumptions c54_total.
(** "(+ 62 30) (/ 92 0) nan" *)
Definition ex_num (s : str) : option Z :=
  if decide (s = [110; 97; 110]%N) then None else Some (fold_left (fun n c => n * 10 + Z.of_N c - 48)%Z s 0%Z).
(** example *)
Definition ex_exprs : list expr := [EBin OAdd (ENum [54; 50]) (ENum [51; 48]); EBin ODiv (ENum [57; 50]) (ENum [48]); ENum [110; 97; 110]]%N.
(** example *)
Definition ex_shown : list (kind * str) :=
  [(0, [40]); (2, [43]); (3, [32]); (2, [54; 50]); (3, [32]); (2, [51; 48]); (1, [41]); (3, [32]);
   (0, [40]); (2, [47]); (3, [32]); (2, [57; 50]); (3, [32]); (2, [48]); (1, [41]); (3, [32]); (2, [110; 97; 110])]%N.
Example c54_nonvacuous :
  shown_all ex_exprs ex_shown /\ Forall (fun t => (t.1 <= ERROR)%N) ex_shown /\
  mapM_res (value Checked ex_num) ex_exprs = Ok [Some 92; None; None]%Z /\
  match parse ex_env Checked cache_empty ex_shown with Ok (g, _) => eval_root Checked ex_num g = Ok [Some 92; None; None]%Z | Err _ => False end.
Proof.
  assert (Hw : trivia [(3, [32])]%N) by (repeat constructor).
  assert (Hn : trivia []) by constructor.
  split; [|split; [repeat constructor; discriminate|by vm_compute]].
  apply (shown_all_cons _ _ [] (take 7 ex_shown) (drop 7 ex_shown)); [done| |].
  { apply (shown_bin OAdd _ _ [(2, [54; 50])] [(2, [51; 48])] [] [(3, [32])] [(3, [32])] [] [40] [41])%N; done || constructor. }
  apply (shown_all_cons _ _ [(3, [32])]%N (take 7 (drop 8 ex_shown)) (drop 15 ex_shown)); [done| |].
  { apply (shown_bin ODiv _ _ [(2, [57; 50])] [(2, [48])] [] [(3, [32])] [(3, [32])] [] [40] [41])%N; done || constructor. }
  apply (shown_all_cons _ _ [(3, [32])]%N [(2, [110; 97; 110])]%N []); [done|constructor|by constructor].
Qed.

(** ** C52: the arithmetic example *)
(** The tree is what the grammar (left-associative, [*] and [/] before [+] and [-]) makes of the
    tokens up to [rest]; it holds exactly those tokens, in order. *)
Theorem c52_parse env c ts :
  cenv_ok env -> cache_reachable env Checked c ->
  exists els rest, add_g els rest /\ ts = m_leaves (Node M_ROOT els) ++ rest /\
    if (blen (ttext (Node M_ROOT els)) <=? u32_max)%N
    then exists g, m_parse env Checked c ts = Ok (CRoot g) /\ erase g = Node M_ROOT els
    else m_parse env Checked c ts = Err Panic.
Proof.
  intros Henv Hc. destruct (m_parse_spec env Henv c ts Hc) as (els&rest&Hg&Ht&H).
  exists els, rest. rewrite ttext_m_leaves. done.
Qed.
Print Assumptions c52_parse.
(** the grammar allows one tree and one rest for a sequence of tokens *)
Theorem c52_unambiguous els1 els2 rest1 rest2 :
  add_g els1 rest1 -> add_g els2 rest2 ->
  m_leaves (Node M_ROOT els1) ++ rest1 = m_leaves (Node M_ROOT els2) ++ rest2 -> els1 = els2 /\ rest1 = rest2.
Proof. exact (add_g_det els1 els2 rest1 rest2). Qed.
Print Assumptions c52_unambiguous.
(** numbers with operators between them: everything is consumed, and there is no error node *)
Theorem c52_lossless els rest :
  add_g els rest -> wants_val (m_leaves (Node M_ROOT els) ++ rest) = true ->
  rest = [] /\ m_no_error (Node M_ROOT els) = true.
Proof. intros H Hv. destruct (add_g_well els rest H Hv) as [-> Hn]. done. Qed.
Print Assumptions c52_lossless.
(** otherwise the parser stops before a token that is neither white space nor an operator *)
Theorem c52_rest els rest :
  add_g els rest -> match rest with [] => True | t :: _ => t.1 ∉ [M_WHITESPACE; M_ADD; M_SUB; M_MUL; M_DIV] end.
Proof. exact (add_g_next els rest). Qed.
Print Assumptions c52_rest.
(** The parser is not lossless: "1 2" becomes a tree of "1 ". *)
Theorem c52_all_tokens_refuted :
  exists env c ts g, cenv_ok env /\ cache_reachable env Checked c /\ m_parse env Checked c ts = Ok (CRoot g) /\ m_leaves (erase g) <> ts.
Proof.
  exists ex_env, cache_empty, [(5, [49]); (0, [32]); (5, [50])]%N.
  destruct (m_parse ex_env Checked cache_empty [(5, [49]); (0, [32]); (5, [50])]%N) as [[g|]|] eqn:E; [|by vm_compute in E..].
  exists g. split; [apply ex_env_ok|]. split; [apply ex_cache_reachable|]. split; [done|].
  vm_compute in E. injection E as <-. by vm_compute.
Qed.
Print Assumptions c52_all_tokens_refuted.
(** 1 + 2 * 3 + 4, the example's own input *)
Definition ex_math : list (kind * str) :=
  [(5, [49]); (0, [32]); (1, [43]); (0, [32]); (5, [50]); (0, [32]); (3, [42]); (0, [32]); (5, [51]); (0, [32]); (1, [43]);
   (0, [32]); (5, [52])]%N.
Example c52_nonvacuous :
  wants_val ex_math = true /\
  match m_parse ex_env Checked cache_empty ex_math with
  | Ok (CRoot g) => erase g =
      Node M_ROOT [Node M_OPERATION [
        Node M_OPERATION [Token 5 [49]; Token 0 [32]; Token 1 [43];
          Node M_OPERATION [Token 0 [32]; Token 5 [50]; Token 0 [32]; Token 3 [42]; Token 0 [32]; Token 5 [51]]; Token 0 [32]];
        Token 1 [43]; Token 0 [32]; Token 5 [52]]]%N
  | _ => False
  end.
Proof. by vm_compute. Qed.
Example c52_nonvacuous_grammar : exists els, add_g els [] /\ m_leaves (Node M_ROOT els) = ex_math.
Proof.
  destruct (c52_parse ex_env cache_empty ex_math ex_env_ok ex_cache_reachable) as (els&rest&Hg&Ht&_).
  destruct (c52_lossless els rest Hg) as [-> _]; [by rewrite <- Ht|]. exists els. by rewrite app_nil_r in Ht.
Qed.
