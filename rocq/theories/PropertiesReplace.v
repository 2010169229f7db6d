(** * Theorems: [replace_with] on any tree a client can hold, and held green elements (C66, C67)

    [replaceable t p x r]: the element [x] at [p] of [t] has the kind of [r], and the text of
    [t] with [r] in the place of [x] is not longer than [u32::MAX] bytes.
    [replaced_in st g t' a st']: variable [a] holds the green tree [t'], the replacement has been
    moved out of [g], and all other trees, handles and green elements are as before. *)
From Verif Require Import Replace PropertiesHeap PropertiesAstHeap.
Local Open Scope nat_scope.

(** ** C66: [SyntaxNode::replace_with], [SyntaxToken::replace_with] *)
Theorem c66_node env prog st os fuel s g n m t p x r : henv_ok env -> s_run prog s_init = SOk (st, os) ->
  holds st s n m t p x -> is_node x = true -> s_greens st !! g = Some (Some r) -> is_node r = true -> length p < fuel ->
  (replaceable t p x r -> reaches env prog (p_replace_with fuel s g) (replaced_in st g (treplace t p r))) /\
  (~ replaceable t p x r -> panics env prog (p_replace_with fuel s g)).
Proof.
  intros Henv E H _ Hg _ Hf. pose proof (swp_replace p fuel Hf st s g n m t x r H Hg (green_fits _ _ _ _ _ _ Henv E Hg)) as Hw. split; intros Hr.
  - eapply (reaches_swp env Henv _ _ _ E). eapply swp_mono; [exact Hw|by intros ?? [_ ?]|by intros ?? [_ ?]].
  - eapply (panics_swp env Henv _ _ _ E). eapply swp_mono; [exact Hw|by intros ?? [? _]|by intros ?? [? _]].
Qed.
Print Assumptions c66_node.
(** a token without a parent cannot be replaced *)
Theorem c66_token env prog st os fuel s g n m t p x r : henv_ok env -> s_run prog s_init = SOk (st, os) ->
  holds st s n m t p x -> is_node x = false -> s_greens st !! g = Some (Some r) -> is_node r = false -> length p <= fuel ->
  (p <> [] /\ replaceable t p x r -> reaches env prog (p_token_replace_with fuel s g) (replaced_in st g (treplace t p r))) /\
  (~ (p <> [] /\ replaceable t p x r) -> panics env prog (p_token_replace_with fuel s g)).
Proof.
  intros Henv E H _ Hg _ Hf. pose proof (swp_token_replace fuel p st s g n m t x r Hf H Hg (green_fits _ _ _ _ _ _ Henv E Hg)) as Hw. split; intros Hr.
  - eapply (reaches_swp env Henv _ _ _ E). eapply swp_mono; [exact Hw|by intros ?? [_ ?]|by intros ?? [_ ?]].
  - eapply (panics_swp env Henv _ _ _ E). eapply swp_mono; [exact Hw|by intros ?? [? _]|by intros ?? [? _]].
Qed.
Print Assumptions c66_token.
(** the text of the result: the bytes of the element's range are exchanged, all others stay *)
Theorem c66_text t p x r a b : tsub t p = Some x -> trange t p = Some (a, b) ->
  tsub (treplace t p r) p = Some r /\
  exists l q, ttext t = l ++ ttext x ++ q /\ ttext (treplace t p r) = l ++ ttext r ++ q /\ blen l = a /\ blen (l ++ ttext x) = b /\
    trange (treplace t p r) p = Some (a, (a + blen (ttext r))%N).
Proof.
  intros Hx Hr. unfold trange in *. rewrite Hx in Hr. injection Hr as <- <-. rewrite (treplace_sub _ _ _ _ Hx), (tbefore_treplace _ _ _ _ Hx).
  split; [done|]. destruct (treplace_text t p x r Hx) as (q&E1&E2). exists (tbefore t p), q. by rewrite blen_app.
Qed.
Print Assumptions c66_text.

(** a copy of an edited tree (slot 9 the root, 11 a node two levels down, 12 the token before
    it), and green elements 5 (kind 10), 6 (kind 11), 7 (a token of kind 2), 8 (the node of 11) *)
Definition swap : list op := mixed ++ [OGreenNode 10 [1; 1; 1]; OGreenNode 11 [0]; OGreenToken 2 [100; 101]%N; ONav NPrevSiblingOrToken 11; OGreen 11].
(** example *)
Definition swap_st : sst := match s_run swap s_init with SOk (st, _) => st | _ => s_init end.
(** example *)
Definition t10c : tree := Node 10 [Token 2 [99]; Token 2 [99]; Token 2 [99]]%N.
Example c66_nonvacuous :
  is_Some (match s_run swap s_init with SOk x => Some x | _ => None end) /\
  holds swap_st 11 4 false mixed_t [2; 2] t10 /\ holds swap_st 4 0 true mixed_t [2] (Node 10 [t_ab; Token 2 [99]%N; t10]) /\
  holds swap_st 12 4 false mixed_t [2; 1] (Token 2 [99]%N) /\
  s_greens swap_st !! 5 = Some (Some t10c) /\ s_greens swap_st !! 7 = Some (Some (Token 2 [100; 101]%N)) /\
  replaceable mixed_t [2; 2] t10 t10c /\ ~ replaceable mixed_t [2; 2] t10 (Node 11 [t_ab]) /\
  (* in the copy; in the edited tree; the token *)
  run_script bump_env swap (g ← p_replace_with 9 11 5; l ← p_green_look g; PRet (l_tree l)) =
    Ok (Node 12 [Node 11 []; t_ab; Node 10 [t_ab; Token 2 [99]%N; t10c]]) /\
  run_script bump_env swap (g ← p_replace_with 9 4 5; l ← p_green_look g; o ← p_look 0; PRet (l_tree l, l_tree o)) = Ok (Node 12 [Node 11 []; t_ab; t10c], mixed_t) /\
  run_script bump_env swap (g ← p_token_replace_with 9 12 7; l ← p_green_look g; PRet (l_tree l)) =
    Ok (Node 12 [Node 11 []; t_ab; Node 10 [t_ab; Token 2 [100; 101]%N; t10]]) /\
  (* another kind; the root *)
  run_script bump_env swap (p_replace_with 9 11 6) = Err Panic /\ run_script bump_env swap (p_token_replace_with 9 12 0) = Err Panic /\
  run_script bump_env swap (g ← p_replace_with 1 9 4; PRet g) = Ok 4.
Proof. split_and!; first [by vm_compute|by eexists|by intros [? _]|by split; vm_compute]. Qed.
(** a token that has been detached *)
Example c66_nonvacuous_detached : let prog := demo ++ [ODetach 3] in
  match s_run prog s_init with
  | SOk (st, _) => exists n, holds st 3 n true t_ab [] t_ab /\ s_greens st !! 0 = Some (Some t_ab) /\ run_script bump_env prog (p_token_replace_with 9 3 0) = Err Panic
  | _ => False
  end.
Proof. vm_compute. by exists 3. Qed.

(** ** C67: green elements are values *)
(** whatever the client does, a green element shows the same tree until it is dropped *)
Theorem c67_immutable env prog later st os st' os' g t : henv_ok env -> s_run prog s_init = SOk (st, os) -> s_greens st !! g = Some (Some t) ->
  s_run later st = SOk (st', os') -> OGreenDrop g ∉ later -> gshows env prog g t /\ gshows env (prog ++ later) g t.
Proof.
  intros Henv E Hg El Hn. split; [by eapply gshows_greens|].
  assert (E' : s_run (prog ++ later) s_init = SOk (st', os ++ os')) by (rewrite s_run_app, E; simpl; by rewrite El).
  eapply gshows_greens; [done|exact E'|]. exact (greens_run later _ _ _ _ _ El Hg Hn).
Qed.
Print Assumptions c67_immutable.
(** [splice_children] and [replace_child] make a new node, [children().nth(i)] hands out a part *)
Theorem c67_made env prog st os g t : henv_ok env -> s_run prog s_init = SOk (st, os) -> s_greens st !! g = Some (Some t) -> is_node t = true ->
  let new := length (s_greens st) in
  (forall a b els ts t', Forall2 (fun e r => s_greens st !! e = Some (Some r)) els ts ->
     t' = Node (tkind t) (take a (tchildren t) ++ ts ++ drop b (tchildren t)) ->
     if (a <=? b) && (b <=? length (tchildren t)) && (blen (ttext t') <=? u32_max)%N
     then gshows env (prog ++ [OGreenSplice a b els g]) new t' else (client env (prog ++ [OGreenSplice a b els g])).1 = Err Panic) /\
  (forall i e r t', s_greens st !! e = Some (Some r) -> t' = Node (tkind t) (<[i:=r]> (tchildren t)) ->
     if (blen (ttext t') <=? u32_max)%N
     then gshows env (prog ++ [OGreenReplace i e g]) new t' else (client env (prog ++ [OGreenReplace i e g])).1 = Err Panic) /\
  (forall i, match tchildren t !! i with
             | Some x => gshows env (prog ++ [OGreenChild i g]) new x
             | None => (client env (prog ++ [OGreenChild i g])).1 = Err Panic
             end).
Proof.
  intros Henv E Hg Hn new.
  assert (Hadd : forall o x, s_step o st = SOk (add_green x st, None) -> gshows env (prog ++ [o]) new x).
  { intros o x Ho. eapply gshows_greens; [done|by eapply run_step|]. simpl. unfold new. by rewrite lookup_app_r, Nat.sub_diag. }
  split_and!.
  - intros a b els ts t' Hts Et.
    assert (Hm : mapM (fun g => mjoin (s_greens st !! g)) els = Some ts).
    { apply mapM_Some_2. eapply Forall2_impl; [exact Hts|]. intros e r Hr. simpl. by rewrite Hr. }
    destruct (_ && _ && _) eqn:Eb.
    + apply andb_prop in Eb as [Eb1 Eb2]. apply Hadd. cbn [s_step]. rewrite Hg. cbn [of_slot mbind sres_bind]. rewrite Hn. cbn [ill_unless]. rewrite Hm, <- Et.
      rewrite Eb1. cbn [panic_unless mbind sres_bind]. by rewrite Eb2.
    + eapply step_panic; [done|exact E|]. cbn [s_step]. rewrite Hg. cbn [of_slot mbind sres_bind]. rewrite Hn. cbn [ill_unless]. rewrite Hm, <- Et.
      destruct ((a <=? b) && _); [|done]. cbn [panic_unless mbind sres_bind]. change ((blen (ttext t') <=? u32_max)%N = false) in Eb. by rewrite Eb.
  - intros i e r t' He Et. destruct (_ <=? _)%N eqn:Eb.
    + apply Hadd. cbn [s_step]. rewrite Hg. cbn [of_slot mbind sres_bind]. rewrite Hn. cbn [ill_unless]. rewrite He. cbn [of_slot mbind sres_bind]. rewrite <- Et. by rewrite Eb.
    + eapply step_panic; [done|exact E|]. cbn [s_step]. rewrite Hg. cbn [of_slot mbind sres_bind]. rewrite Hn. cbn [ill_unless]. rewrite He. cbn [of_slot mbind sres_bind]. rewrite <- Et. by rewrite Eb.
  - intros i. destruct (_ !! i) as [x|] eqn:Ei.
    + apply Hadd. cbn [s_step]. rewrite Hg. cbn [of_slot mbind sres_bind]. rewrite Hn. cbn [ill_unless mbind sres_bind]. by rewrite Ei.
    + eapply step_panic; [done|exact E|]. cbn [s_step]. rewrite Hg. cbn [of_slot mbind sres_bind]. rewrite Hn. cbn [ill_unless mbind sres_bind]. by rewrite Ei.
Qed.
Print Assumptions c67_made.
Example c67_nonvacuous :
  let prog := swap ++ [OGreenSplice 1 3 [0; 5] 4; OGreenReplace 1 6 9; OGreenChild 2 9; OGreenDrop 9; OSplice 4 0 2 [6]; ODrop 9] in
  match s_run prog s_init with
  | SOk (st, _) => s_greens st !! 9 = Some None /\ s_greens st !! 10 = Some (Some (Node 12 [t10; Node 11 [t_ab]; t10c; t10])) /\ s_greens st !! 11 = Some (Some t10c) /\
      s_greens st !! 4 = Some (Some t12) /\ s_greens st !! 8 = Some (Some t10)
  | _ => False
  end.
Proof. by vm_compute. Qed.
