(** * Theorems: methods made of several calls, on any tree a client can hold (C55 - C59)

    [p_...] are the methods of cursor.rs that are written in terms of other methods
    (Compound.v), as programs that make those calls.  [outcome env prog st p Q]: run on the
    heap after any [prog], [p] returns; no tree has changed, no handle has been lost, and the
    client has the result [a] and the handles [F] more than before, where [Q a F].
    [got n ps l F]: the results [l] are handles at the positions [ps] of tree [n].
    [panics env prog p]: it panics. *)
From Verif Require Import Moves PropertiesHeap.

(** the start of the proofs below *)
Local Ltac at_root Henv E H :=
  let root := fresh "root" in let c := fresh "c" in
  destruct (sim_root _ Henv _ _ _ E _ _ _ _ _ _ H) as (root&c&Hwf&Hco&->&Hc&->); destruct H as (Hs&Ht&Hx);
  apply cin_at in Hc as [Hc <-]; rewrite ?erase_is_node in *.
Local Ltac by_tracking Henv E Hs L Hl := eapply (tracked_ok _ Henv _ _ _ E _ _ _ _ _ _ _ _ Hs); [by eapply L|exact Hl|].
Local Ltac got_list Hp := intros ? ? HR; rewrite <- Hp; eapply Rlist_got; [|exact HR]; by intros ? ? ? [[_ ->] _].

(** ** C55: iterators *)
Theorem c55_children env prog st os tok fuel s n m t p x : henv_ok env -> s_run prog s_init = SOk (st, os) ->
  holds st s n m t p x -> is_node x = true ->
  let l := map (fun i => p ++ [i]) (sel_from (pick tok) (tchildren x) 0) in
  length l < fuel ->
  outcome env prog st (p_children tok fuel s) (got n l).
Proof.
  intros Henv E H Hn l Hf. subst l. rewrite map_length in Hf. at_root Henv E H. destruct (collect_children root Hwf tok c fuel Hc Hf) as (l&Hl&Hp).
  by_tracking Henv E Hs tr_children Hl. got_list Hp.
Qed.
Print Assumptions c55_children.
Theorem c55_children_by_kind env prog st os tok f fuel s n m t p x : henv_ok env -> s_run prog s_init = SOk (st, os) ->
  holds st s n m t p x -> is_node x = true ->
  let l := map (fun i => p ++ [i]) (sel_from (fun y => f (tkind y) && (tok || is_node y)) (tchildren x) 0) in
  length l < fuel ->
  outcome env prog st (p_children_by_kind tok f fuel s) (got n l).
Proof.
  intros Henv E H Hn l Hf. subst l. rewrite map_length in Hf. at_root Henv E H. destruct (collect_by_kind root Hwf tok f c fuel Hc Hf) as (l&Hl&Hp).
  by_tracking Henv E Hs tr_children_by_kind Hl. unfold kind_sel in Hp. got_list Hp.
Qed.
Print Assumptions c55_children_by_kind.
Theorem c55_siblings env prog st os tok d fuel s n m t p x : henv_ok env -> s_run prog s_init = SOk (st, os) ->
  holds st s n m t p x -> (tok = false -> is_node x = true) ->
  length (sibling_positions tok d t p) < fuel ->
  outcome env prog st (p_siblings tok d fuel s) (got n (sibling_positions tok d t p)).
Proof.
  intros Henv E H Hn Hf. at_root Henv E H. destruct (collect_siblings root Hwf tok d c fuel Hc Hf) as (l&Hl&Hp).
  by_tracking Henv E Hs tr_siblings Hl. got_list Hp.
Qed.
Print Assumptions c55_siblings.
(** a token is not among its own ancestors *)
Theorem c55_ancestors env prog st os fuel s n m t p x : henv_ok env -> s_run prog s_init = SOk (st, os) ->
  holds st s n m t p x ->
  let l := if is_node x then prefixes_rev p else tail (prefixes_rev p) in
  length l < fuel ->
  outcome env prog st (p_ancestors fuel s) (got n l).
Proof.
  intros Henv E H l Hf. subst l. at_root Henv E H. destruct (collect_ancestors root c fuel Hc Hf) as (l&Hl&Hp).
  by_tracking Henv E Hs tr_ancestors Hl. unfold c_is_node in Hp. got_list Hp.
Qed.
Print Assumptions c55_ancestors.
Theorem c55_descendants env prog st os tok fuel s n m t p x : henv_ok env -> s_run prog s_init = SOk (st, os) ->
  holds st s n m t p x -> (tok = false -> is_node x = true) ->
  let evs := if tok then twalk x else twalk_nodes x in
  length evs < fuel ->
  outcome env prog st (p_descendants tok fuel s) (got n (map (app p) (walk_enters evs))).
Proof.
  intros Henv E H Hn evs Hf. subst evs. at_root Henv E H. destruct (collect_descendants root tok c fuel Hwf Hco Hc Hn Hf) as (l&Hl&Hp).
  by_tracking Henv E Hs tr_descendants Hl. got_list Hp.
Qed.
Print Assumptions c55_descendants.
(** [preorder], with [skip_subtree] called after entering the elements whose look [skip] says yes to *)
Theorem c55_preorder env prog st os tok skip fuel s n m t p x : henv_ok env -> s_run prog s_init = SOk (st, os) ->
  holds st s n m t p x -> (tok = false -> is_node x = true) ->
  let prune q := match tsub x q with Some y => skip (look_at m t (p ++ q) y) | None => false end in
  let evs := twalk_pruned (pick tok) prune x in
  length evs < fuel ->
  outcome env prog st (p_preorder tok skip fuel s) (got_events n (map (wmap (app p)) evs)).
Proof.
  intros Henv E H Hn prune evs Hf. subst prune evs. at_root Henv E H. destruct (collect_preorder m root Hwf Hco tok skip c fuel Hc Hf) as (l&Hl&Hs'&Hp).
  by_tracking Henv E Hs tr_preorder Hl. intros a F HR. apply Rlist_got_events in HR as [H1 H2]. rewrite Hp in H2. split.
  - by eapply same_event_trans.
  - rewrite map_map. erewrite map_ext; [exact H2|]. intros e. by destruct e.
Qed.
Print Assumptions c55_preorder.
(** what can be seen afterwards: the new handles show the elements at their positions, the
    old ones what they showed before *)
Theorem c55_shown env prog st os {A} (P : script A) Q : henv_ok env -> s_run prog s_init = SOk (st, os) -> outcome env prog st P Q ->
  exists hs h ops hs' h' os' a F, client env prog = (Ok (hs, os), h) /\ hexec env P hs h = (Ok (hs', a), h') /\ client env (prog ++ ops) = (Ok (hs', os'), h') /\ Q a F /\
    (forall u n p m t x, (u, @pair nat pos n p) ∈ F -> s_trees st !! n = Some (m, t) -> tsub t p = Some x -> shows env (prog ++ ops) u (look_at m t p x)) /\
    (forall u l, full st u -> shows env prog u l -> shows env (prog ++ ops) u l).
Proof.
  intros Henv E (hs&h&os0&ops&st'&hs'&h'&os'&a&F&H1&H2&H3&H4&HT&HG&HK&Hh&HQ).
  assert (os0 = os) as ->. { destruct (reach env Henv _ _ _ E) as (?&?&H&_). rewrite H1 in H. by injection H. }
  exists hs, h, ops, hs', h', (os ++ os'), a, F. split_and!; try done.
  - intros u n p m t x Hin Ht Hx. eapply shows_at; [done|exact H4| |by rewrite HT|exact Hx]. apply elem_of_held. rewrite Hh. apply elem_of_app. by left.
  - intros u l Hf Hl. destruct (shows_inv env Henv _ _ _ _ _ E Hl Hf) as (n&p&m&t&x&Hs&Ht&Hx&->).
    eapply shows_at; [done|exact H4| |by rewrite HT|exact Hx]. apply elem_of_held. rewrite Hh. apply elem_of_app. right. by apply elem_of_held.
Qed.
Print Assumptions c55_shown.
(** kind, range and index of elements *)
Definition brief (l : list look) : list (kind * (N * N) * option N) := map (fun l => (l_kind l, l_range l, N.of_nat <$> l_index l)) l.
(** example *)
Definition briefs {A} (p : script A) (f : A -> list nat) : res (list (kind * (N * N) * option N)) :=
  run_script bump_env demo (a ← p; x ← p_looks (f a); PRet (brief x)).
Example c55_nonvacuous : holds demo_st 0 0 true t12 [] t12 /\ holds demo_st 7 2 false t12 [] t12 /\ holds demo_st 5 0 true t12 [0; 0] t_ab /\
  briefs (p_children true 9 0) (fun l => l) = Ok [(10, (0, 3), Some 0); (11, (3, 3), Some 1); (1, (3, 5), Some 2); (10, (5, 8), Some 3)]%N /\
  briefs (p_children_by_kind false (N.eqb 10) 9 7) (fun l => l) = Ok [(10, (0, 3), Some 0); (10, (5, 8), Some 3)]%N /\
  briefs (p_siblings true Prev 9 4) (fun l => l) = Ok [(10, (5, 8), Some 3); (1, (3, 5), Some 2); (11, (3, 3), Some 1); (10, (0, 3), Some 0)]%N /\
  briefs (p_ancestors 9 5) (fun l => l) = Ok [(10, (0, 3), Some 0); (12, (0, 8), None)]%N /\
  briefs (p_descendants false 9 0) (fun l => l) = Ok [(12, (0, 8), None); (10, (0, 3), Some 0); (11, (3, 3), Some 1); (10, (5, 8), Some 3)]%N /\
  briefs (p_preorder true (fun l => bool_decide (l_kind l = 10%N)) 19 0) (map ev_slot) =
    Ok [(12, (0, 8), None); (10, (0, 3), Some 0); (10, (0, 3), Some 0); (11, (3, 3), Some 1); (11, (3, 3), Some 1); (1, (3, 5), Some 2); (1, (3, 5), Some 2);
        (10, (5, 8), Some 3); (10, (5, 8), Some 3); (12, (0, 8), None)]%N.
Proof. by vm_compute. Qed.

(** ** C56: tokens and searches *)
Local Ltac got_one Hp := intros ? ? HR; eapply Ropt_got; [exact HR|exact Hp].
Theorem c56_first_last_token env prog st os s n m t p x : henv_ok env -> s_run prog s_init = SOk (st, os) ->
  holds st s n m t p x ->
  outcome env prog st (p_first_token s) (got_opt n (app p <$> leftmost x)) /\
  outcome env prog st (p_last_token s) (got_opt n (app p <$> rightmost x)).
Proof.
  intros Henv E H. at_root Henv E H. split.
  - destruct (first_token_path root Hwf c Hc) as (o&Ho&Hp). eapply (tracked_ok _ Henv _ _ _ E _ _ _ _ _ _ _ _ Hs); [eapply tr_first_token; try done; left|exact Ho|]. got_one Hp.
  - destruct (last_token_path root Hwf c Hc) as (o&Ho&Hp). eapply (tracked_ok _ Henv _ _ _ E _ _ _ _ _ _ _ _ Hs); [eapply tr_last_token; try done; left|exact Ho|]. got_one Hp.
Qed.
Print Assumptions c56_first_last_token.
Theorem c56_next_prev_token env prog st os fuel s n m t p x : henv_ok env -> s_run prog s_init = SOk (st, os) ->
  holds st s n m t p x -> length p < fuel ->
  outcome env prog st (p_next_token fuel s) (got_opt n (q ← up_next t p; y ← tsub t q; app q <$> leftmost y)) /\
  outcome env prog st (p_prev_token fuel s) (got_opt n (q ← up_prev t p; y ← tsub t q; app q <$> rightmost y)).
Proof.
  intros Henv E H Hf. at_root Henv E H. split.
  - destruct (next_token_path root Hwf c Hc) as (o&Ho&Hp). eapply (tracked_ok _ Henv _ _ _ E _ _ _ _ _ _ _ _ Hs); [eapply tr_next_token; try done; left|exact Ho|]. got_one Hp.
  - destruct (prev_token_path root Hwf c Hc) as (o&Ho&Hp). eapply (tracked_ok _ Henv _ _ _ E _ _ _ _ _ _ _ _ Hs); [eapply tr_prev_token; try done; left|exact Ho|]. got_one Hp.
Qed.
Print Assumptions c56_next_prev_token.
Theorem c56_token_at_offset env prog st os y s n m t p x a b : henv_ok env -> s_run prog s_init = SOk (st, os) ->
  holds st s n m t p x -> is_node x = true -> trange t p = Some (a, b) ->
  if (a <=? y)%N && (y <=? b)%N
  then outcome env prog st (p_token_at_offset y s) (fun r => got n (map (app p) (touching_tokens t p y)) (tao_list r))
  else panics env prog (p_token_at_offset y s).
Proof.
  intros Henv E H Hn Hr. at_root Henv E H. rewrite (crange_trange root Hwf _ _ Hc) in Hr. injection Hr as <- <-.
  assert (Htr : tracks (s_trees st) (s_greens st) (s_leaked st) [(s, (n, c_path c))] (p_token_at_offset y s) (token_at_offset c y) (kept [(s, (n, c_path c))] (Rtao n root))).
  { eapply tr_token_at_offset; try done; left. }
  destruct (N.leb_spec (c_offset c) y); [destruct (N.leb_spec y (c_offset c + blen (gtext (c_green c)))); simpl|simpl].
  - destruct (token_at_offset_at root Hwf _ _ y Hc Hn ltac:(lia)) as (r&Hr&Hp). apply at_below_paths in Hp.
    eapply (tracked_ok _ Henv _ _ _ E _ _ _ _ _ _ _ _ Hs Htr Hr). intros ? ? HR. by eapply Rtao_got.
  - eapply (tracked_panic _ Henv _ _ _ E _ _ _ _ _ _ Hs Htr). eapply token_at_offset_outside; [done|done|lia].
  - eapply (tracked_panic _ Henv _ _ _ E _ _ _ _ _ _ Hs Htr). eapply token_at_offset_outside; [done|done|lia].
Qed.
Print Assumptions c56_token_at_offset.
Theorem c56_covering_element env prog st os u v s n m t p x a b : henv_ok env -> s_run prog s_init = SOk (st, os) ->
  holds st s n m t p x -> is_node x = true -> trange t p = Some (a, b) -> (u <= v)%N ->
  if (a <=? u)%N && (v <=? b)%N then
    exists q, outcome env prog st (p_covering_element u v s) (fun d F => F = [(d, @pair nat pos n (p ++ q))]) /\
      (exists ra, trange t (p ++ q) = Some ra /\ range_contains ra (u, v)) /\
      (forall i ra, trange t (p ++ q ++ [i]) = Some ra -> ~ range_contains ra (u, v)) /\
      ((u < v)%N -> forall q' ra, trange t (p ++ q') = Some ra -> range_contains ra (u, v) -> ancestor_or_self q' q)
  else panics env prog (p_covering_element u v s).
Proof.
  intros Henv E H Hn Hr Huv. at_root Henv E H. rewrite (crange_trange root Hwf _ _ Hc) in Hr. injection Hr as <- <-.
  assert (Htr : tracks (s_trees st) (s_greens st) (s_leaked st) [(s, (n, c_path c))] (p_covering_element u v s) (covering_element c (TR u v)) (kept [(s, (n, c_path c))] (Rc n root))).
  { eapply tr_covering_element; try done; left. }
  assert (Hinv : forall q ra, trange (erase root) q = Some ra -> exists d, cursor_at root q = Some d /\ ra = crange d).
  { intros q ra Hq. destruct (cursor_at_is_Some root q) as [d Hd].
    - unfold trange in Hq. destruct (tsub (erase root) q); [by eexists|done].
    - exists d. split; [done|]. rewrite (crange_trange root Hwf q d Hd) in Hq. by injection Hq. }
  assert (Hdec : ((c_offset c <=? u)%N && (v <=? c_offset c + blen (gtext (c_green c)))%N) = true <-> range_contains (crange c) (u, v)).
  { rewrite andb_true_iff, !N.leb_le. done. }
  destruct ((c_offset c <=? u)%N && _) eqn:Eb.
  - destruct (covering_element_f_at root Hwf _ _ c (TR u v) Hc (le_n _) Huv (proj1 Hdec eq_refl)) as (q&d&H1&H2&H3&H4&H5).
    exists q. split_and!.
    + eapply (tracked_ok _ Henv _ _ _ E _ _ _ _ _ _ _ _ Hs Htr H1). intros ? ? [_ ->]. by rewrite (proj2 (cin_at _ _ _ H2)).
    + exists (crange d). split; [by apply crange_trange|done].
    + intros i ra (e&He&->)%Hinv. by apply (H4 i e).
    + intros Hne q' ra (e&He&->)%Hinv Hra. by apply (H5 Hne q' e).
  - eapply (tracked_panic _ Henv _ _ _ E _ _ _ _ _ _ Hs Htr). apply (covering_element_outside root Hwf _ _ _ Hc). intros Hx'%Hdec. done.
Qed.
Print Assumptions c56_covering_element.
Example c56_nonvacuous : holds demo_st 0 0 true t12 [] t12 /\ holds demo_st 5 0 true t12 [0; 0] t_ab /\ trange t12 [] = Some (0, 8)%N /\
  briefs (p_last_token 0) (fun o => (match o with Some s => [s] | None => [] end)) = Ok [(2, (7, 8), Some 1)]%N /\
  briefs (p_next_token 5 5) (fun o => (match o with Some s => [s] | None => [] end)) = Ok [(2, (2, 3), Some 1)]%N /\
  briefs (p_token_at_offset 3 0) tao_list = Ok [(2, (2, 3), Some 1); (1, (3, 5), Some 2)]%N /\
  briefs (p_token_at_offset 9 0) tao_list = Err Panic /\
  briefs (p_covering_element 6 7 0) (fun s => [s]) = Ok [(1, (5, 7), Some 0)]%N /\
  briefs (p_covering_element 6 9 0) (fun s => [s]) = Err Panic.
Proof. by vm_compute. Qed.

(** ** C57: programs that choose their calls by what earlier calls returned *)
Theorem c57_adaptive env prog st os {A} (P : script A) : henv_ok env -> s_run prog s_init = SOk (st, os) -> typed_script P st ->
  exists hs h, client env prog = (Ok (hs, os), h) /\
    match hexec env P hs h with
    | (Ok (hs', a), h') => exists ops st' os', s_run (prog ++ ops) s_init = SOk (st', os') /\ client env (prog ++ ops) = (Ok (hs', os'), h')
    | (Err e, _) => e <> UB
    end.
Proof.
  intros Henv E Ht. destruct (reach env Henv _ _ _ E) as (hs&h&Hcl&Hsim&Hwf). exists hs, h. split; [done|].
  destruct (hexec_sound env Henv P _ _ st hs h Hsim (typed_script_swp P st Hwf Ht)) as (ops&st'&hs'&h'&(os'&Hr1&Hr2)&_&He).
  destruct (hexec env P hs h) as [[[hs'' a]|e] h'']; [|by destruct He]. destruct He as (->&->&_). exists ops, st', (os ++ os'). split.
  - rewrite s_run_app, E. simpl. by rewrite Hr1.
  - by eapply client_app.
Qed.
Print Assumptions c57_adaptive.
Example c57_nonvacuous : typed_script (p_detach_deepest 5 0) demo_st /\ typed_script (p_detach_deepest 5 6) demo_st /\
  briefs (p_detach_deepest 5 0) (fun s => (s :: [4])) = Ok [(10, (0, 3), None); (10, (2, 5), Some 2)]%N.
Proof. split_and!; [apply typed_scriptb_ok; by vm_compute..|by vm_compute]. Qed.

(** ** C58: detaching any of the children of a node, in any order *)
(** [without is cs]: the elements of [cs] whose index is not in [is]; [below is j]: how many
    of [is] are less than [j] *)
Theorem c58_detach_children env prog st os us is n t p k cs : henv_ok env -> s_run prog s_init = SOk (st, os) ->
  s_trees st !! n = Some (true, t) -> tsub t p = Some (Node k cs) ->
  Forall2 (fun u i => exists y, holds st u n true t (p ++ [i]) y) us is -> NoDup is ->
  let prog' := prog ++ map ODetach us in
  let x' := Node k (without is cs) in
  let t' := treplace t p x' in
  (* handles on and below the detached children *)
  (forall v j r c y, j ∈ is -> cs !! j = Some c -> holds st v n true t (p ++ j :: r) y -> shows env prog' v (look_at true c r y)) /\
  (* handles on and below the others *)
  (forall v j r y, j ∉ is -> holds st v n true t (p ++ j :: r) y -> shows env prog' v (look_at true t' (p ++ (j - below is j) :: r) y)) /\
  (* handles on the node, above it and elsewhere in the tree *)
  (forall v q y, (forall j r, q <> p ++ j :: r) -> holds st v n true t q y ->
     shows env prog' v (look_at true t' q (match strip q p with Some r => treplace y r x' | None => y end))) /\
  (* other trees *)
  (forall v n2 m2 t2 q y, n2 <> n -> holds st v n2 m2 t2 q y -> shows env prog' v (look_at m2 t2 q y)).
Proof.
  intros Henv E Hn Hp Hus Hnd prog' x' t'. destruct (detach_many us is st n t p k cs Hn Hp Hus Hnd) as (st'&os'&Hr&HT&HA&HB&HC&HD).
  assert (E' : s_run prog' s_init = SOk (st', os ++ os')). { unfold prog'. rewrite s_run_app, E. cbn [mbind sres_bind]. by rewrite Hr. }
  split_and!.
  - intros v j r c y H1 H2 H3. destruct (HA v j r c y H1 H2 H3) as [n' H]. by eapply holds_shows.
  - intros v j r y H1 H2. eapply holds_shows; [done|exact E'|by apply HB].
  - intros v q y H1 H2. eapply holds_shows; [done|exact E'|by apply HC].
  - intros v n2 m2 t2 q y H1 H2. eapply holds_shows; [done|exact E'|by apply HD].
Qed.
Print Assumptions c58_detach_children.
(** collecting the children first and then detaching each (compare C37): all of them go *)
Theorem c58_collect_detach env prog st os tok fuel s n t p k cs : henv_ok env -> s_run prog s_init = SOk (st, os) ->
  holds st s n true t p (Node k cs) -> length cs < fuel ->
  exists hs h ops hs' h' os' l, client env prog = (Ok (hs, os), h) /\ hexec env (p_children tok fuel s) hs h = (Ok (hs', l), h') /\
    client env (prog ++ ops) = (Ok (hs', os'), h') /\ length l = length (List.filter (pick tok) cs) /\
    let prog' := (prog ++ ops) ++ map ODetach l in
    let x' := Node k (List.filter (fun c => negb (pick tok c)) cs) in
    shows env prog' s (look_at true (treplace t p x') p x') /\
    (forall i u c, l !! i = Some u -> List.filter (pick tok) cs !! i = Some c -> shows env prog' u (look_at true c [] c)).
Proof.
  intros Henv E H Hf. pose proof (sel_go_length (pick tok) 0 cs) as Hl.
  destruct (c55_children env prog st os tok fuel s n true t p (Node k cs) Henv E H eq_refl) as (hs&h&os0&ops&st'&hs'&h'&os'&l&F&H1&H2&H3&H4&HT&HG&HK&Hh&[Hlen HF]).
  { rewrite map_length. unfold sel_from. rewrite drop_0. cbn [tchildren]. lia. }
  assert (os0 = os) as ->. { destruct (reach env Henv _ _ _ E) as (?&?&Hc&_). rewrite H1 in Hc. by injection Hc. }
  set (is := sel_from (pick tok) cs 0) in *. cbn [tchildren] in *. fold is in Hlen, HF. rewrite map_length in Hlen. destruct H as (Hs&Hn&Hp).
  assert (Hsub : forall i j, is !! i = Some j -> exists c, cs !! j = Some c /\ List.filter (pick tok) cs !! i = Some c /\ tsub t (p ++ [j]) = Some c).
  { intros i j Hj. assert (Hg : forall (l : list tree) o i j, sel_go (pick tok) o l !! i = Some j -> o <= j /\ exists c, l !! (j - o) = Some c /\ List.filter (pick tok) l !! i = Some c).
    { clear. induction l as [|x l IH]; intros o i j; simpl; [by rewrite lookup_nil|]. destruct (pick tok x); [destruct i as [|i]|].
      - intros [= <-]. rewrite Nat.sub_diag. split; [done|]. by exists x.
      - simpl. intros Hj. destruct (IH _ _ _ Hj) as (H1&c&H2&H3). split; [lia|]. exists c. by replace (j - o) with (S (j - S o)) by lia.
      - intros Hj. destruct (IH _ _ _ Hj) as (H1&c&H2&H3). split; [lia|]. exists c. by replace (j - o) with (S (j - S o)) by lia. }
    unfold is, sel_from in Hj. rewrite drop_0 in Hj. destruct (Hg _ _ _ _ Hj) as (_&c&H5&H6). rewrite Nat.sub_0_r in H5. exists c. split_and!; [done|done|].
    rewrite tsub_app, Hp. simpl. by rewrite H5. }
  assert (Hin : forall i u j, l !! i = Some u -> is !! i = Some j -> exists c, List.filter (pick tok) cs !! i = Some c /\ cs !! j = Some c /\ holds st' u n true t (p ++ [j]) c).
  { intros i u j Hu Hj. destruct (Hsub i j Hj) as (c&Hc1&Hc2&Hc3). exists c. split_and!; [done|done|]. split_and!; [|by rewrite HT|done].
    apply elem_of_held. rewrite Hh, HF. apply elem_of_app. left. apply elem_of_list_lookup. exists i. apply lookup_zip_with_Some. eexists _, _. split_and!; [reflexivity|done|].
    rewrite (list_lookup_fmap (@pair nat pos n)), (list_lookup_fmap (fun i => p ++ [i])), Hj. done. }
  exists hs, h, ops, hs', h', (os ++ os'), l. do 3 (split; [done|]). split.
  { rewrite Hlen. unfold is, sel_from. rewrite drop_0. clear. generalize 0. induction cs as [|c cs IH]; intros o; simpl; [done|]. destruct (pick tok c); simpl; by rewrite IH. }
  assert (Hus : Forall2 (fun u i => exists y, holds st' u n true t (p ++ [i]) y) l is).
  { apply Forall2_same_length_lookup_2; [done|]. intros i u j Hu Hj. destruct (Hin i u j Hu Hj) as (c&_&_&Hc). by exists c. }
  destruct (c58_detach_children env (prog ++ ops) st' (os ++ os') l is n t p k cs Henv H4 ltac:(by rewrite HT) Hp Hus ltac:(apply sel_go_NoDup)) as (HA&_&HC&_).
  unfold is in HC. rewrite (without_sel (pick tok) cs) in HC. split.
  - assert (Hs' : holds st' s n true t p (Node k cs)). { split_and!; [|by rewrite HT|done]. apply elem_of_held. rewrite Hh. apply elem_of_app. right. by apply elem_of_held. }
    assert (Hq : forall j r, p <> p ++ j :: r). { intros j r Hx. apply (f_equal length) in Hx. rewrite app_length in Hx. simpl in Hx. lia. }
    specialize (HC s p _ Hq Hs'). pose proof (strip_app p []) as Es. rewrite app_nil_r in Es. rewrite Es in HC. exact HC.
  - intros i u c Hu Hc. destruct (is !! i) as [j|] eqn:Ej; [|apply lookup_ge_None in Ej; apply lookup_lt_Some in Hu; lia].
    destruct (Hin i u j Hu Ej) as (c'&Hc1&Hc2&Hc3). rewrite Hc in Hc1. injection Hc1 as <-. eapply (HA u j [] c c); [by eapply elem_of_list_lookup_2|done|exact Hc3].
Qed.
Print Assumptions c58_collect_detach.
Example c58_nonvacuous : holds demo_st 0 0 true t12 [] t12 /\ Forall2 (fun u i => exists y, holds demo_st u 0 true t12 ([] ++ [i]) y) [4; 1; 3] [3; 0; 2] /\ NoDup [3; 0; 2] /\
  without [3; 0; 2] (tchildren t12) = [Node 11 []] /\
  shows bump_env (demo ++ map ODetach [4; 1; 3]) 0 (Look true None 12 (0, 0)%N (Node 12 [Node 11 []])) /\
  shows bump_env (demo ++ map ODetach [4; 1; 3]) 2 (Look true (Some 0) 11 (0, 0)%N (Node 11 [])) /\
  shows bump_env (demo ++ map ODetach [4; 1; 3]) 5 (Look true (Some 0) 1 (0, 2)%N t_ab).
Proof.
  split_and!; [by vm_compute| | |by vm_compute|apply shows_check; by vm_compute..].
  - repeat (constructor; [eexists; by vm_compute|]). constructor.
  - apply (bool_decide_unpack _). by vm_compute.
Qed.

(** ** C59: detaching an element and inserting it where it was *)
Theorem c59_put_back env prog st os s u n t p i k cs x : henv_ok env -> s_run prog s_init = SOk (st, os) ->
  holds st s n true t p (Node k cs) -> holds st u n true t (p ++ [i]) x ->
  forall v l, v <> u -> full st v -> shows env prog v l -> shows env (prog ++ [ODetach u; OSplice s i i [u]]) v l.
Proof.
  intros Henv E Hs Hu v l Hv Hf Hl. destruct (sim_root env Henv _ _ _ E _ _ _ _ _ _ Hs) as (root&c&Hwf&_&->&_).
  destruct (detach_put_back st u s n (erase root) p i k cs x Hs Hu) as (st'&os'&Hr&Hh). { exact (wfg_bound root Hwf). }
  destruct (shows_holds env Henv _ _ _ _ _ E Hf Hl) as (n'&m'&t'&p'&x'&Hv'&->). eapply (holds_shows env Henv); [|by apply Hh].
  rewrite s_run_app, E. cbn [mbind sres_bind]. rewrite Hr. done.
Qed.
Print Assumptions c59_put_back.
Example c59_nonvacuous : holds demo_st 0 0 true t12 [] t12 /\ holds demo_st 1 0 true t12 ([] ++ [0]) t10 /\
  shows bump_env demo 5 (Look true (Some 0) 1 (0, 2)%N t_ab) /\ shows bump_env (demo ++ [ODetach 1; OSplice 0 0 0 [1]]) 5 (Look true (Some 0) 1 (0, 2)%N t_ab) /\
  shows bump_env (demo ++ [ODetach 1; OSplice 0 0 0 [1]]) 4 (Look true (Some 3) 10 (5, 8)%N t10).
Proof. split_and!; try (by vm_compute); apply shows_check; by vm_compute. Qed.
