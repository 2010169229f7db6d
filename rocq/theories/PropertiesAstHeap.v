(** * Theorems: pointers and typed accessors on any tree a client can hold (C63, C64, C65)

    As in PropertiesScript.v: [outcome env prog st p Q] runs the method [p] on the node heap
    after any program [prog]; no tree changes and no handle is lost.  [kfr] is
    [Language::kind_from_raw], [cast] the decision of [AstNode::cast]. *)
From Verif Require Import AstHeap PropertiesHeap.
Local Open Scope nat_scope.

(** the start of the proofs below *)
Local Ltac at_root Henv E H :=
  let root := fresh "root" in let c := fresh "c" in
  destruct (sim_root _ Henv _ _ _ E _ _ _ _ _ _ H) as (root&c&Hwf&Hco&->&Hc&->); destruct H as (Hs&Ht&Hx);
  apply cin_at in Hc as [Hc <-]; rewrite ?erase_is_node in *.

(** ** C63: [SyntaxNodePtr] *)
Theorem c63_new env prog st os kfr s n m t p x a b : henv_ok env -> s_run prog s_init = SOk (st, os) ->
  holds st s n m t p x -> is_node x = true -> trange t p = Some (a, b) ->
  if m then panics env prog (p_ptr_new kfr s)
  else outcome env prog st (p_ptr_new kfr s) (fun ptr F => ptr = PTR (kfr (tkind x)) (TR a b) /\ F = []).
Proof.
  intros Henv E H Hn Hr. at_root Henv E H. rewrite (crange_trange _ Hwf _ _ Hc) in Hr. injection Hr as <- <-.
  pose proof (tr_ptr_new _ (s_greens st) (s_leaked st) n m root Ht Hwf kfr s c [(s, (n, c_path c))] Hc ltac:(left)) as Htr.
  assert (Htr' : tracks (s_trees st) (s_greens st) (s_leaked st) [(s, (n, c_path c))] (p_ptr_new kfr s) (if m then Err Panic else ptr_new kfr c)
    (kept [(s, (n, c_path c))] (fun b a F' => a = b /\ F' = []))).
  { eapply tracks_mono; [exact Htr|]. intros y z F' [-> ->]. by exists []. }
  destruct m.
  - by eapply (tracked_panic _ Henv _ _ _ E _ _ _ _ _ _ Hs).
  - eapply (tracked_ok _ Henv _ _ _ E _ _ _ _ _ _ _ _ Hs); [exact Htr'|unfold ptr_new; by rewrite (c_text_range_at _ Hwf _ _ Hc)|].
    intros y F [-> ->]. split; [|done]. f_equal. f_equal. unfold c_kind. by destruct (c_green c).
Qed.
Print Assumptions c63_new.
(** on a mutable tree *)
Theorem c63_mutable env prog st os kfr (cast : look -> bool) ptr s n t p x : henv_ok env -> s_run prog s_init = SOk (st, os) ->
  holds st s n true t p x -> is_node x = true -> range_ok (ptr_range ptr) ->
  panics env prog (p_try_to_node kfr ptr s) /\ panics env prog (p_to_node kfr ptr s) /\
  panics env prog (p_ast_try_to_node kfr cast ptr s) /\ panics env prog (p_ast_to_node kfr cast ptr s).
Proof.
  intros Henv E H Hn Hr. at_root Henv E H. split_and!.
  - eapply (tracked_panic _ Henv _ _ _ E _ _ _ _ _ _ Hs); [by eapply tr_try_to_node|done].
  - eapply (tracked_panic _ Henv _ _ _ E _ _ _ _ _ _ Hs); [by eapply tr_to_node|done].
  - eapply (tracked_panic _ Henv _ _ _ E _ _ _ _ _ _ Hs); [by eapply tr_ast_try_to_node|done].
  - eapply (tracked_panic _ Henv _ _ _ E _ _ _ _ _ _ Hs); [by eapply tr_ast_to_node|done].
Qed.
Print Assumptions c63_mutable.
(** on an immutable node that is not the root *)
Theorem c63_not_a_root env prog st os kfr ptr s n t p x : henv_ok env -> s_run prog s_init = SOk (st, os) ->
  holds st s n false t p x -> is_node x = true -> p <> [] -> range_ok (ptr_range ptr) ->
  outcome env prog st (p_try_to_node kfr ptr s) (got_opt n None) /\ panics env prog (p_to_node kfr ptr s).
Proof.
  intros Henv E H Hn Hp Hr. at_root Henv E H.
  assert (Hnone : try_to_node kfr ptr c = Ok None). { destruct c; [by destruct Hp|done]. }
  split.
  - eapply (tracked_ok _ Henv _ _ _ E _ _ _ _ _ _ _ _ Hs); [by eapply tr_try_to_node|exact Hnone|]. intros a F HR. by eapply (Rn_got_opt n root None).
  - eapply (tracked_panic _ Henv _ _ _ E _ _ _ _ _ _ Hs); [by eapply tr_to_node|]. unfold to_node. by rewrite Hnone.
Qed.
Print Assumptions c63_not_a_root.
(** on the root of an immutable tree [t]: the answer is the outermost node on the way down to
    the range that has the range and the kind of the pointer *)
Definition resolves (kfr : kind -> kind) (ptr : node_ptr) (t : tree) (o : option pos) : Prop :=
  let a := rstart (ptr_range ptr) in let e := rend (ptr_range ptr) in
  let loc := located t (fun k => kfr k = ptr_kind ptr) a e in
  match o with
  | Some q => search_path t a e q /\ loc q /\ forall q', proper_ancestor q' q -> ~ loc q'
  | None => (forall q, search_path t a e q -> ~ loc q) /\ ((a < e)%N -> forall q, ~ loc q)
  end.
Theorem c63_resolve env prog st os kfr (cast : look -> bool) ptr s n t : henv_ok env -> s_run prog s_init = SOk (st, os) ->
  holds st s n false t [] t -> is_node t = true -> range_ok (ptr_range ptr) ->
  exists o, resolves kfr ptr t o /\
    outcome env prog st (p_try_to_node kfr ptr s) (got_opt n o) /\
    (match o with Some q => outcome env prog st (p_to_node kfr ptr s) (fun d F => F = [(d, @pair nat pos n q)]) | None => panics env prog (p_to_node kfr ptr s) end) /\
    let o' := q ← o; x ← tsub t q; if cast (look_at false t q x) then Some q else None in
    outcome env prog st (p_ast_try_to_node kfr cast ptr s) (got_opt n o') /\
    match o' with Some q => outcome env prog st (p_ast_to_node kfr cast ptr s) (fun d F => F = [(d, @pair nat pos n q)]) | None => panics env prog (p_ast_to_node kfr cast ptr s) end.
Proof.
  intros Henv E H Hn Hr. destruct (sim_root _ Henv _ _ _ E _ _ _ _ _ _ H) as (root&c&Hwf&Hco&->&Hc&_). destruct H as (Hs&Ht&Hx).
  injection Hc as <-. rewrite erase_is_node in Hn. destruct (try_to_node_at root Hwf kfr ptr Hr Hn) as (o&Ho&Hres).
  assert (Hc : cin root (CRoot root)) by done.
  exists o. split.
  { unfold resolves. destruct o as [q|]; [done|]. split; [done|]. intros Hne q Hl. eapply Hres; [|exact Hl]. by eapply located_on_path. }
  assert (Hq : c_path <$> (o ≫= cursor_at root) = o). { apply (at_paths_opt root). intros q ->. destruct Hres as (_&(_&x&Hx'&_)&_). by exists x. }
  set (o' := q ← o; x ← tsub (erase root) q; if cast (look_at false (erase root) q x) then Some q else None).
  assert (Hcast : exists oc, ast_try_to_node kfr (cast_of false root cast) ptr (CRoot root) = Ok oc /\ c_path <$> oc = o').
  { unfold ast_try_to_node. change (CRoot root) with (new_root root). rewrite Ho. eexists. split; [done|]. subst o'.
    destruct o as [q|]; [|done]. simpl in Hq |- *. destruct (cursor_at root q) as [d|] eqn:Ed; [|done]. simpl in *. injection Hq as Hq.
    rewrite (cursor_at_tsub _ _ _ Ed). simpl. unfold cast_of, look_of. rewrite Hq. by destruct (cast _); simpl; rewrite ?Hq. }
  destruct Hcast as (oc&Hoc&Hpc). cbv zeta. fold o'. split_and!.
  - eapply (tracked_ok _ Henv _ _ _ E _ _ (CRoot root) _ _ _ _ _ Hs); [by eapply tr_try_to_node|exact Ho|]. intros a F HR. eapply Rn_got_opt; [exact HR|exact Hq].
  - destruct o as [q|].
    + simpl in Hq, Ho. destruct (cursor_at root q) as [d|]; [|done]. injection Hq as Hq.
      eapply (tracked_ok _ Henv _ _ _ E _ _ (CRoot root) _ _ d _ _ Hs); [by eapply tr_to_node| |]; [unfold to_node; change (CRoot root) with (new_root root); by rewrite Ho|].
      intros a F [[_ ->] _]. by rewrite Hq.
    + eapply (tracked_panic _ Henv _ _ _ E _ _ (CRoot root) _ _ _ Hs); [by eapply tr_to_node|]. unfold to_node. change (CRoot root) with (new_root root). by rewrite Ho.
  - eapply (tracked_ok _ Henv _ _ _ E _ _ (CRoot root) _ _ _ _ _ Hs); [by eapply tr_ast_try_to_node|exact Hoc|]. intros a F HR. eapply Rn_got_opt; [exact HR|exact Hpc].
  - destruct oc as [d|]; simpl in Hpc; rewrite <- Hpc.
    + eapply (tracked_ok _ Henv _ _ _ E _ _ (CRoot root) _ _ d _ _ Hs); [by eapply tr_ast_to_node| |]; [unfold ast_to_node; by rewrite Hoc|].
      by intros a F [[_ ->] _].
    + eapply (tracked_panic _ Henv _ _ _ E _ _ (CRoot root) _ _ _ Hs); [by eapply tr_ast_to_node|]. unfold ast_to_node. by rewrite Hoc.
Qed.
Print Assumptions c63_resolve.
(** the pointer that [c63_new] makes from the node at [p] resolves to this node iff the way
    down to its range passes the node and no proper ancestor has its kind and range *)
Theorem c63_roundtrip env prog st os kfr s n t p x a b : henv_ok env -> s_run prog s_init = SOk (st, os) ->
  holds st s n false t [] t -> tsub t p = Some x -> is_node x = true -> trange t p = Some (a, b) ->
  exists o, outcome env prog st (p_try_to_node kfr (PTR (kfr (tkind x)) (TR a b)) s) (got_opt n o) /\
    (o = Some p <-> search_path t a b p /\ forall q, proper_ancestor q p -> ~ located t (fun k => kfr k = kfr (tkind x)) a b q).
Proof.
  intros Henv E H Hx Hn Hr.
  assert (Hab : range_ok (TR a b)). { unfold range_ok; simpl. unfold trange in Hr. rewrite Hx in Hr. injection Hr as <- <-. lia. }
  assert (Hnt : is_node t = true). { destruct p as [|i p]; [by injection Hx as ->|]. by destruct t. }
  destruct (c63_resolve env prog st os kfr (fun _ => true) (PTR (kfr (tkind x)) (TR a b)) s n t Henv E H Hnt Hab) as (o&Hres&Hout&_).
  exists o. split; [exact Hout|].
  destruct (sim_root _ Henv _ _ _ E _ _ _ _ _ _ H) as (root&c&Hwf&Hco&->&_&_).
  split.
  - intros ->. destruct Hres as (H1&_&H3). done.
  - intros [Hsp Hno]. apply (resolves_once root Hwf (fun k => kfr k = kfr (tkind x)) a b p o Hab Hsp); [split; [done|by exists x]|exact Hno|]. unfold resolves in Hres. simpl in Hres.
    destruct o as [q|]; [done|]. by destruct Hres.
Qed.
Print Assumptions c63_roundtrip.
(** example *)
Definition mixed : list op := demo ++ [OSplice 4 2 2 [1]; OCloneSubtree 0; ONav NLastChild 9; ONav NLastChild 10].
(** example *)
Definition mixed_st : sst := match s_run mixed s_init with SOk (st, _) => st | _ => s_init end.
(** example *)
Definition mixed_t : tree := Node 12 [Node 11 []; t_ab; Node 10 [t_ab; Token 2 [99]%N; t10]].
Example c63_nonvacuous :
  (* a mutable tree after a move, and an immutable copy of it *)
  holds mixed_st 0 0 true mixed_t [] mixed_t /\ holds mixed_st 9 4 false mixed_t [] mixed_t /\ holds mixed_st 11 4 false mixed_t [2; 2] t10 /\
  trange mixed_t [2; 2] = Some (5, 8)%N /\
  run_script bump_env mixed (p_ptr_new (fun k => k) 11) = Ok (PTR 10 (TR 5 8)) /\
  run_script bump_env mixed (p_ptr_new (fun k => k) 0) = Err Panic /\
  run_script bump_env mixed (p_try_to_node (fun k => k) (PTR 10 (TR 5 8)) 0) = Err Panic /\
  run_script bump_env mixed (p_try_to_node (fun k => k) (PTR 10 (TR 5 8)) 11) = Ok None /\
  run_script bump_env mixed (d ← p_to_node (fun k => k) (PTR 10 (TR 5 8)) 9; l ← p_look d; PRet (l_index l, l_range l, l_tree l)) = Ok (Some 2, (5, 8)%N, t10) /\
  run_script bump_env mixed (p_to_node (fun k => k) (PTR 11 (TR 5 8)) 9) = Err Panic /\
  run_script bump_env mixed (p_ast_try_to_node (fun k => k) (fun l => bool_decide (l_kind l = 12%N)) (PTR 10 (TR 5 8)) 9) = Ok None.
Proof. split_and!; by vm_compute. Qed.

(** ** C64: [support::child], [support::children], [support::token] *)
Theorem c64_children env prog st os (cast : look -> bool) fuel s n m t p x : henv_ok env -> s_run prog s_init = SOk (st, os) ->
  holds st s n m t p x -> is_node x = true -> length (tchildren x) < fuel ->
  let l := map (fun i => p ++ [i]) (kids_where (fun i y => is_node y && cast (look_at m t (p ++ [i]) y)) (tchildren x)) in
  outcome env prog st (p_ast_children cast fuel s) (got n l) /\
  outcome env prog st (p_ast_child cast fuel s) (got_opt n (head l)).
Proof.
  intros Henv E H Hn Hf. cbv zeta. at_root Henv E H. split.
  - destruct (collect_casts m root Hwf cast c fuel Hc Hf) as (l&Hl&Hp). eapply (tracked_ok _ Henv _ _ _ E _ _ _ _ _ _ _ _ Hs); [by eapply tr_ast_children|exact Hl|].
    intros a F HR. rewrite <- Hp. eapply Rlist_got; [|exact HR]. by intros ? ? ? [[_ ->] _].
  - destruct (find_first_at m root Hwf false cast c fuel Hc Hf) as (o&Ho&Hp). eapply (tracked_ok _ Henv _ _ _ E _ _ _ _ _ _ _ _ Hs); [by eapply (tr_find_first _ _ _ n m root Ht Hwf false)|exact Ho|].
    intros a F HR. rewrite head_map. simpl in Hp. rewrite <- Hp. unfold Ropt, got_opt in *. destruct o, a; simpl; try done. by destruct HR as [[_ ->] _].
Qed.
Print Assumptions c64_children.
Theorem c64_token env prog st os kfr k fuel s n m t p x : henv_ok env -> s_run prog s_init = SOk (st, os) ->
  holds st s n m t p x -> is_node x = true -> length (tchildren x) < fuel ->
  outcome env prog st (p_ast_token kfr k fuel s)
    (got_opt n ((fun i => p ++ [i]) <$> head (kids_where (fun _ y => is_token y && (kfr (tkind y) =? k)%N) (tchildren x)))).
Proof.
  intros Henv E H Hn Hf. at_root Henv E H.
  destruct (find_first_at m root Hwf true (fun l => negb (is_node (l_tree l)) && (kfr (l_kind l) =? k)%N) c fuel Hc Hf) as (o&Ho&Hp).
  eapply (tracked_ok _ Henv _ _ _ E _ _ _ _ _ _ _ _ Hs); [by eapply (tr_find_first _ _ _ n m root Ht Hwf true)|exact Ho|].
  intros a F HR. rewrite (kids_where_ext _ (fun i y => pick true y && (negb (is_node (l_tree (look_at m (erase root) (c_path c ++ [i]) y))) && (kfr (l_kind (look_at m (erase root) (c_path c ++ [i]) y)) =? k)%N))) by done.
  rewrite <- Hp. unfold Ropt, got_opt in *. destruct o, a; simpl; try done. by destruct HR as [[_ ->] _].
Qed.
Print Assumptions c64_token.
Example c64_nonvacuous :
  (* the children of the edited tree that start at byte 2 or later, or are leaves; the node at 4 has two tokens and a node *)
  holds mixed_st 4 0 true mixed_t [2] (Node 10 [t_ab; Token 2 [99]%N; t10]) /\
  run_script bump_env mixed (l ← p_ast_children (fun l => (2 <=? (l_range l).1)%N) 9 0; x ← p_looks l; PRet (map l_index x)) = Ok [Some 2] /\
  run_script bump_env mixed (l ← p_ast_children (fun _ => true) 9 0; x ← p_looks l; PRet (map l_index x)) = Ok [Some 0; Some 2] /\
  run_script bump_env mixed (o ← p_ast_child (fun l => bool_decide (l_kind l = 10%N)) 9 0; x ← p_looks (option_list o); PRet (map l_index x)) = Ok [Some 2] /\
  run_script bump_env mixed (o ← p_ast_child (fun l => bool_decide (l_kind l = 1%N)) 9 0; PRet o) = Ok None /\
  run_script bump_env mixed (o ← p_ast_token (fun k => (k + 1)%N) 3 9 4; x ← p_looks (option_list o); PRet (map l_tree x)) = Ok [Token 2 [99]%N].
Proof. split_and!; by vm_compute. Qed.

(** ** C65: [AstNode::clone_for_update], [AstNode::clone_subtree] *)
(** [clone_for_update]: a mutable tree of the same shape and a handle at the same position;
    [clone_subtree]: an immutable tree of the node alone.  [cast] sees the new node. *)
Theorem c65_clone env prog st os (update : bool) (cast : look -> bool) s n m t p x : henv_ok env -> s_run prog s_init = SOk (st, os) ->
  holds st s n m t p x -> is_node x = true ->
  let '(m', t', p') := if update then (true, t, p) else (false, x, []) in
  if negb (update && m) && cast (look_at m' t' p' x)
  then reaches env prog (p_ast_clone update cast s) (fun c st' =>
         s_trees st' = s_trees st ++ [(m', t')] /\ s_greens st' = s_greens st /\ s_leaked st' = s_leaked st /\
         held st' ≡ₚ (c, (length (s_trees st), p')) :: held st)
  else panics env prog (p_ast_clone update cast s).
Proof.
  intros Henv E (Hs&Ht&Hx) Hn. destruct (if update then (true, t, p) else (false, x, [])) as [[m' t'] p'] eqn:Ec.
  assert (Hsub : tsub t' p' = Some x) by (destruct update; by injection Ec as <- <- <-).
  set (st1 := add_handle (Some (length (s_trees st), p')) (add_tree m' t' st)).
  assert (Hs1 : s_handles st1 !! length (s_handles st) = Some (Some (length (s_trees st), p'))).
  { simpl. by rewrite lookup_app_r, Nat.sub_diag by done. }
  assert (Ht1 : s_trees st1 !! length (s_trees st) = Some (m', t')). { simpl. by rewrite lookup_app_r, Nat.sub_diag by done. }
  destruct (negb (update && m) && cast (look_at m' t' p' x)) eqn:Eb.
  - apply andb_prop in Eb as [Eb1%negb_true_iff Eb2]. eapply (reaches_swp env Henv _ _ _ E). unfold p_ast_clone.
    eapply (swp_copy update); [exact Hs|exact Ht|exact Hx|exact Hn|]. rewrite Eb1. unfold copy_of. rewrite Ec. fold st1.
    eapply (swp_cast cast); [exact Hs1|exact Ht1|exact Hsub|]. rewrite Eb2. cbn [p_unwrap swp]. split_and!; try done. apply held_new.
  - eapply (panics_swp env Henv _ _ _ E). unfold p_ast_clone. eapply (swp_copy update); [exact Hs|exact Ht|exact Hx|exact Hn|].
    destruct (update && m); [done|]. change (cast (look_at m' t' p' x) = false) in Eb. unfold copy_of. rewrite Ec. fold st1.
    eapply (swp_cast cast); [exact Hs1|exact Ht1|exact Hsub|]. rewrite Eb. done.
Qed.
Print Assumptions c65_clone.
Example c65_nonvacuous :
  run_script bump_env mixed (c ← p_ast_clone true (fun l => l_mut l && bool_decide (l_kind l = 10%N)) 11; p_look c) = Ok (look_at true mixed_t [2; 2] t10) /\
  run_script bump_env mixed (c ← p_ast_clone false (fun l => bool_decide (l_kind l = 10%N)) 4; p_look c) =
    Ok (look_at false (Node 10 [t_ab; Token 2 [99]%N; t10]) [] (Node 10 [t_ab; Token 2 [99]%N; t10])) /\
  run_script bump_env mixed (p_ast_clone true (fun _ => true) 4) = Err Panic /\
  (* a cast that looks at more than the kind *)
  run_script bump_env mixed (p_ast_clone false (fun l => negb (bool_decide (l_index l = None))) 4) = Err Panic.
Proof. split_and!; by vm_compute. Qed.
