(** * Theorems: nodes on the heap, client programs and mutation (C33 - C44)

    [client env prog] runs the program [prog] on the model of cursor.rs (Heap.v).
    [s_run prog s_init] says what it must do (Client.v): every handle is a tree number
    and a position; trees share nothing.  [shows env prog s l]: after [prog], looking at
    the element in variable [s] (is_mutable, index, kind, text_range, everything below)
    gives [l].  [look_at m t p x]: what has to be seen at position [p] of the tree [t],
    where [x] is.  [env]: any allocators that never hand out an address in use. *)
From Verif Require Import HeapClient.

(** the program used in the examples: trees [12[10["ab" "c"] 11[] "ab" 10["ab" "c"]]],
    mutable (variables 0-5) and immutable (7, 8), and [10["ab" "c"]], mutable (6) *)
Definition demo : list op :=
  [OGreenToken 1 [97; 98]%N; OGreenToken 2 [99]%N; OGreenNode 10 [0; 1]; OGreenNode 11 []; OGreenNode 12 [2; 3; 0; 2];
   ORoot true 4; ONav NFirstChild 0; ONav NNextSibling 1; ONav NNextSiblingOrToken 2; ONav NNextSibling 2; ONav NFirstChildOrToken 1;
   ORoot true 2; ORoot false 4; ONav NFirstChild 7].
(** example *)
Definition demo_st : sst := match s_run demo s_init with SOk (st, _) => st | _ => s_init end.
(** example *)
Definition demo_os : list obs := match s_run demo s_init with SOk (_, os) => os | _ => [] end.
(** example *)
Definition t_ab : tree := Token 1 [97; 98]%N.
(** example *)
Definition t10 : tree := Node 10 [t_ab; Token 2 [99]%N].
(** example *)
Definition t12 : tree := Node 12 [t10; Node 11 []; t_ab; t10].
Example demo_run : s_run demo s_init = SOk (demo_st, demo_os) /\ s_trees demo_st = [(true, t12); (true, t10); (false, t12)] /\
  s_handles demo_st = [Some (0, []); Some (0, [0]); Some (0, [1]); Some (0, [2]); Some (0, [3]); Some (0, [0; 0]); Some (1, []); Some (2, []); Some (2, [0])].
Proof. by vm_compute. Qed.
Example demo_env : henv_ok bump_env.
Proof. exact bump_env_ok. Qed.

(** ** C40: everything a program does is what the specification says *)
Theorem c40_refines env prog : henv_ok env ->
  match s_run prog s_init with
  | SOk (_, os) => exists hs h, client env prog = (Ok (hs, os), h)
  | SPanic => (client env prog).1 = Err Panic
  | SStuck => (client env prog).1 = Err Panic \/ (client env prog).1 = Err Diverge
  | SIll => True
  end.
Proof.
  intros Henv. pose proof (client_sim env prog Henv) as H. unfold meets in H. destruct (s_run prog s_init) as [[st os]| | |] eqn:E; try exact H.
  destruct (reach env Henv _ _ _ E) as (hs&h&Hc&_). eauto.
Qed.
Print Assumptions c40_refines.
Example c40_refines_nonvacuous : (client bump_env (demo ++ [OLook 4])).1 ≠ Err UB /\
  shows bump_env demo 4 (Look true (Some 3) 10 (5, 8)%N t10).
Proof. split; [by vm_compute|]. apply shows_check. by vm_compute. Qed.

(** programs that use only variables that are full and of the right type *)
Theorem c40_no_undefined_behaviour env prog : henv_ok env -> typed_run prog s_init -> (client env prog).1 <> Err UB.
Proof.
  intros Henv Ht. pose proof (typed_run_ok prog s_init wf_init Ht) as Hi. pose proof (c40_refines env prog Henv) as H.
  destruct (s_run prog s_init) as [[st os]| | |]; [destruct H as (hs&h&->); done|by rewrite H|by destruct H as [-> | ->]|done].
Qed.
Print Assumptions c40_no_undefined_behaviour.
Theorem c40_typed_step env prog st os o : henv_ok env -> s_run prog s_init = SOk (st, os) -> typed o st -> (client env (prog ++ [o])).1 <> Err UB.
Proof.
  intros Henv E Ht. assert (Hwf : wf_st st) by (eapply s_run_wf; [exact wf_init|exact E]). pose proof (typed_step o st Hwf) as Hg.
  pose proof (c40_refines env (prog ++ [o]) Henv) as H. rewrite s_run_app, E in H. cbn [mbind sres_bind s_run] in H.
  destruct (s_step o st) as [[st1 x]| | |]; cbn [mbind sres_bind] in H; [destruct H as (hs&h&->); done|by rewrite H|by destruct H as [-> | ->]|by destruct Hg].
Qed.
Print Assumptions c40_typed_step.
Example c40_typed_nonvacuous : typed_run (demo ++ [ODetach 1; OSplice 2 0 0 [1; 6]; ODrop 5]) s_init.
Proof. apply typed_runb_ok. by vm_compute. Qed.

(** every handle's element and all nodes above it are allocated; the counter of a node
    counts the variables that hold it and the nodes below it, and is not zero *)
Theorem c40_allocated env prog st os : henv_ok env -> s_run prog s_init = SOk (st, os) ->
  exists hs h, client env prog = (Ok (hs, os), h) /\ length (h_handles hs) = length (s_handles st) /\
    (forall s hd, s_handles st !! s = Some (Some hd) -> exists x, h_handles hs !! s = Some (Some x)) /\
    (forall s x, h_handles hs !! s = Some (Some x) -> is_Some (hn h !! x)) /\
    (forall x n q, hn h !! x = Some n -> n_par n = Some q -> is_Some (hn h !! q)) /\
    (s_leaked st = [] -> forall x n, hn h !! x = Some n -> n_rc n = holders hs x + length (kids_of h x) /\ 0 < n_rc n).
Proof.
  intros Henv E. destruct (reach env Henv _ _ _ E) as (hs&h&Hc&Hs&_). exists hs, h. split; [done|]. destruct (sim_heap_ok st hs h Hs) as (H1&H2&H3).
  destruct Hs as (zs&lk&Hsim). split_and!; [|by intros s hd (z&_&_&Hz&_)%(sim_slot _ _ _ _ _ _ _ _ Hsim); exists z.1|exact H1|exact H2|exact H3].
  by rewrite (sm_handles _ _ _ _ _ _ Hsim), (sm_pos _ _ _ _ _ _ Hsim), !map_length.
Qed.
Print Assumptions c40_allocated.

(** false once a panic has been caught: [splice_children] with an index past the end
    panics after the child has been linked and its green tree has been released; the
    child's other handle then reads freed memory.  (The handle that was moved in is
    dropped by the unwinding, here [h_drop].) *)
Theorem c40_after_panic_refuted : exists prog o k s, typed_run (prog ++ [o]) s_init /\ typed_run (prog ++ [OLook s]) s_init /\
  use_after_panic bump_env prog o k s.
Proof.
  exists [OGreenNode 1 []; OGreenToken 2 [97]%N; OGreenNode 3 [1]; ORoot true 0; ORoot true 2; OClone 1; OGreenDrop 0; OGreenDrop 1; OGreenDrop 2],
    (OSplice 0 7 7 [2]), 2, 1.
  split; [apply typed_runb_ok; by vm_compute|]. split; [apply typed_runb_ok; by vm_compute|]. apply use_after_panic_check. by vm_compute.
Qed.
Print Assumptions c40_after_panic_refuted.

(** ** C33 *)
Theorem c33_clone_for_update env prog st os s n t p x : henv_ok env -> s_run prog s_init = SOk (st, os) ->
  holds st s n false t p x -> is_node x = true ->
  let new := length (s_handles st) in
  exists st', s_run (prog ++ [OCloneForUpdate s]) s_init = SOk (st', os ++ [None]) /\
    (* a new tree, equal to the whole old one, and the same place in it *)
    holds st' new (length (s_trees st)) true t p x /\
    shows env (prog ++ [OCloneForUpdate s]) new (look_at true t p x) /\
    (forall u l, full st u -> shows env prog u l -> shows env (prog ++ [OCloneForUpdate s]) u l).
Proof.
  intros Henv E H Hn new. pose proof (run_step _ _ _ _ _ _ E (step_clone_for_update st s n t p x H Hn)) as E'.
  pose proof (holds_new true t p x st (proj2 (proj2 H))) as Hnew. eexists. split_and!; [exact E'|exact Hnew|exact (holds_shows env Henv _ _ _ _ _ _ _ _ _ E' Hnew)|].
  intros u l Hu Hl. destruct (shows_holds env Henv _ _ _ _ _ E Hu Hl) as (n'&m'&t'&p'&x'&Hh&->). eapply holds_shows; [done|exact E'|].
  by apply holds_add_handle, holds_add_tree.
Qed.
Print Assumptions c33_clone_for_update.
Theorem c33_clone_for_update_panics env prog st os s n t p x : henv_ok env -> s_run prog s_init = SOk (st, os) ->
  holds st s n true t p x -> is_node x = true -> (client env (prog ++ [OCloneForUpdate s])).1 = Err Panic.
Proof. intros Henv E H Hn. eapply step_panic; [done|done|by eapply step_clone_for_update_mut]. Qed.
Print Assumptions c33_clone_for_update_panics.
Theorem c33_clone_subtree env prog st os s n m t p x : henv_ok env -> s_run prog s_init = SOk (st, os) ->
  holds st s n m t p x -> is_node x = true ->
  let new := length (s_handles st) in
  exists st', s_run (prog ++ [OCloneSubtree s]) s_init = SOk (st', os ++ [None]) /\
    holds st' new (length (s_trees st)) false x [] x /\
    shows env (prog ++ [OCloneSubtree s]) new (look_at false x [] x) /\
    (forall u l, full st u -> shows env prog u l -> shows env (prog ++ [OCloneSubtree s]) u l).
Proof.
  intros Henv E H Hn new. pose proof (run_step _ _ _ _ _ _ E (step_clone_subtree st s n m t p x H Hn)) as E'.
  pose proof (holds_new false x [] x st eq_refl) as Hnew. eexists. split_and!; [exact E'|exact Hnew|exact (holds_shows env Henv _ _ _ _ _ _ _ _ _ E' Hnew)|].
  intros u l Hu Hl. destruct (shows_holds env Henv _ _ _ _ _ E Hu Hl) as (n'&m'&t'&p'&x'&Hh&->). eapply holds_shows; [done|exact E'|].
  by apply holds_add_handle, holds_add_tree.
Qed.
Print Assumptions c33_clone_subtree.
(** both share the green node (same address, no copy) *)
Theorem c33_shares_green env prog st os s n m t p x o hs h : henv_ok env -> s_run prog s_init = SOk (st, os) ->
  holds st s n m t p x -> is_node x = true -> o = OCloneSubtree s \/ m = false /\ o = OCloneForUpdate s ->
  client env prog = (Ok (hs, os), h) ->
  exists hs' h' g, client env (prog ++ [o]) = (Ok (hs', os ++ [None]), h') /\
    green_in h hs s = Some g /\ green_in h' hs' (length (h_handles hs)) = Some g.
Proof.
  intros Henv E (H1&H2&H3) Hn Ho Hc. destruct (reach env Henv _ _ _ E) as (hs0&h0&Hc0&Hs&_). rewrite Hc in Hc0. injection Hc0 as <- <-.
  destruct (clone_shares env Henv st hs h s n p m t x Hs H1 H2 H3 Hn) as [Ha Hb].
  assert (Hr : exists hs' h' g, hstep env o hs h = (Ok (hs', None), h') /\ green_in h hs s = Some g /\ green_in h' hs' (length (h_handles hs)) = Some g).
  { assert (Hw : wp (hstep env o hs) (fun r h' => is_Some (green_in h hs s) /\ green_in h' r.1 (length (h_handles hs)) = green_in h hs s) h).
    { destruct Ho as [->|[-> ->]]; [exact Hb|by apply Ha]. }
    apply wp_ok in Hw as ([hs' ob]&h'&E1&[g Hg]&E2). cbn [fst] in E2. rewrite Hg in E2. exists hs', h', g. split_and!; [|done|done]. rewrite E1. do 3 f_equal.
    pose proof (client_step env prog hs os h o Hc) as Hst. rewrite E1 in Hst.
    assert (exists st', s_run (prog ++ [o]) s_init = SOk (st', os ++ [None])) as [st' E'].
    { destruct Ho as [->|[-> ->]]; eexists; eapply run_step; [exact E|by eapply step_clone_subtree|exact E|by eapply step_clone_for_update]. }
    destruct (reach env Henv _ _ _ E') as (hs2&h2&Hc2&_). rewrite Hst in Hc2. injection Hc2 as _ Ho' _. apply app_inj_tail in Ho' as [_ ?]. done. }
  destruct Hr as (hs'&h'&g&Hr&Hg&Hg'). exists hs', h', g. split_and!; [|done|done]. rewrite (client_step env prog hs os h o Hc), Hr. done.
Qed.
Print Assumptions c33_shares_green.
(** nothing that happens later is seen through a handle of the original *)
Theorem c33_original env prog later st os st' os' s n t p x : henv_ok env -> s_run prog s_init = SOk (st, os) ->
  holds st s n false t p x -> s_run (prog ++ OCloneForUpdate s :: later) s_init = SOk (st', os') -> full st' s ->
  shows env (prog ++ OCloneForUpdate s :: later) s (look_at false t p x).
Proof.
  intros Henv E H E' Hf. pose proof (run_wf _ _ _ E) as Hwf. pose proof H as (H1&H2&H3). rewrite s_run_app, E in E'. cbn [mbind sres_bind] in E'.
  apply bind_ok in E' as ([st1 os1]&E1&E'). injection E' as <- <-. destruct (run_mkeep _ _ _ _ Hwf E1) as [(K1&_&_&K4) _].
  destruct Hf as [h' Hh']. assert (h' = (@pair nat pos n p)) as -> by (eapply (K4 s (@pair nat pos n p)); [exact H1|exact H2|exact Hh']).
  eapply (holds_shows env Henv _ st1 (os ++ os1) s n false t p x); [|by split_and!; [|apply K1|]]. rewrite s_run_app, E. cbn [mbind sres_bind]. by rewrite E1.
Qed.
Print Assumptions c33_original.
Example c33_nonvacuous : holds demo_st 8 2 false t12 [0] t10 /\ is_node t10 = true /\ holds demo_st 1 0 true t12 [0] t10 /\
  (exists st' os', s_run (demo ++ OCloneForUpdate 8 :: [ODetach 9; OSplice 6 1 1 [9]]) s_init = SOk (st', os') /\ full st' 8 /\ s_trees st' !! 2 = Some (false, t12)) /\
  shows bump_env (demo ++ OCloneForUpdate 8 :: [ODetach 9; OSplice 6 1 1 [9]]) 8 (Look false (Some 0) 10 (0, 3)%N t10).
Proof.
  split_and!; [by vm_compute..| |apply shows_check; by vm_compute]. eexists _, _. split; [by vm_compute|]. split; [apply fullb_ok; by vm_compute|by vm_compute].
Qed.

(** ** C34 *)
Theorem c34_detach env prog st os s n t p i x : henv_ok env -> s_run prog s_init = SOk (st, os) ->
  holds st s n true t (p ++ [i]) x ->
  let prog' := prog ++ [ODetach s] in
  let t' := tdelete_child t p i in
  exists st', s_run prog' s_init = SOk (st', os ++ [None]) /\
    (* the detached element is a root *)
    shows env prog' s (look_at true x [] x) /\
    (* handles on and below it have come along *)
    (forall u r y, holds st u n true t (p ++ i :: r) y -> shows env prog' u (look_at true x r y)) /\
    (* handles on the rest of the tree stand for the same element, which now lacks the
       detached one if it was below it *)
    (forall u q y, holds st u n true t q y -> (forall r, q <> p ++ i :: r) ->
       exists q', pos_removed p i q = inr q' /\
         shows env prog' u (look_at true t' q' (match strip q p with Some r => tdelete_child y r i | None => y end))) /\
    (* other trees *)
    (forall u n2 m2 t2 q y, holds st u n2 m2 t2 q y -> n2 <> n -> shows env prog' u (look_at m2 t2 q y)).
Proof.
  intros Henv E H prog' t'. pose proof (run_step _ _ _ _ _ _ E (step_detach st s n t p i x H)) as E'. pose proof H as (_&H2&H3).
  eexists. split; [exact E'|]. fold prog' in E'.
  assert (Hb : forall u r y, holds st u n true t (p ++ i :: r) y -> shows env prog' u (look_at true x r y)).
  { intros u r y Hu. eapply holds_shows; [done|exact E'|]. by apply holds_detach_below. }
  split_and!; [by apply Hb|exact Hb| |].
  - intros u q y Hu Hq. destruct (pos_removed p i q) as [q'|q'] eqn:Ep. { apply pos_removed_inl in Ep. by apply Hq in Ep. }
    exists q'. split; [done|]. eapply holds_shows; [done|exact E'|]. by apply holds_detach_rest.
  - intros u n2 m2 t2 q y Hu Hne. eapply holds_shows; [done|exact E'|]. by apply holds_detach_other.
Qed.
Print Assumptions c34_detach.
(** the text: exactly that of the detached element is gone *)
Theorem c34_text t p i x : tsub t (p ++ [i]) = Some x ->
  exists q, ttext t = tbefore t (p ++ [i]) ++ ttext x ++ q /\ ttext (tdelete_child t p i) = tbefore t (p ++ [i]) ++ q.
Proof. exact (tdelete_text t p i x). Qed.
Print Assumptions c34_text.
Theorem c34_root env prog st os s n t x u l : henv_ok env -> s_run prog s_init = SOk (st, os) ->
  holds st s n true t [] x -> full st u -> shows env prog u l -> shows env (prog ++ [ODetach s]) u l.
Proof.
  intros Henv E H Hu Hl. destruct (shows_holds env Henv _ _ _ _ _ E Hu Hl) as (n'&m'&t'&p'&x'&Hh&->).
  eapply holds_shows; [done|exact (run_step _ _ _ _ _ _ E (step_detach_root st s n t x H))|done].
Qed.
Print Assumptions c34_root.
Example c34_nonvacuous : holds demo_st 1 0 true t12 ([] ++ [0]) t10 /\ holds demo_st 5 0 true t12 ([] ++ 0 :: [0]) t_ab /\
  holds demo_st 4 0 true t12 [3] t10 /\ pos_removed [] 0 [3] = inr [2] /\ holds demo_st 0 0 true t12 [] t12 /\
  tdelete_child t12 [] 0 = Node 12 [Node 11 []; t_ab; t10] /\
  shows bump_env (demo ++ [ODetach 1]) 4 (Look true (Some 2) 10 (2, 5)%N t10) /\
  shows bump_env (demo ++ [ODetach 1]) 5 (Look true (Some 0) 1 (0, 2)%N t_ab).
Proof. split_and!; try (by vm_compute); apply shows_check; by vm_compute. Qed.

(** ** C35 *)
(** the element inserted is a root of another tree *)
Theorem c35_insert env prog st os s c n nc t tc p k cs i : henv_ok env -> s_run prog s_init = SOk (st, os) ->
  holds st s n true t p (Node k cs) -> holds st c nc true tc [] tc -> n <> nc -> i <= length cs ->
  (blen (ttext (tinsert_child t p i tc)) <= u32_max)%N ->
  let prog' := prog ++ [OSplice s i i [c]] in
  let t' := tinsert_child t p i tc in
  exists st', s_run prog' s_init = SOk (st', os ++ [None]) /\
    shows env prog' s (look_at true t' p (Node k (take i cs ++ tc :: drop i cs))) /\
    (* handles on the tree *)
    (forall u q y, u <> c -> holds st u n true t q y ->
       shows env prog' u (look_at true t' (pos_inserted p i q) (match strip q p with Some r => tinsert_child y r i tc | None => y end))) /\
    (* handles on what has been inserted *)
    (forall u q y, u <> c -> holds st u nc true tc q y -> shows env prog' u (look_at true t' (p ++ i :: q) y)) /\
    (* other trees *)
    (forall u n2 m2 t2 q y, u <> c -> holds st u n2 m2 t2 q y -> n2 <> n -> n2 <> nc -> shows env prog' u (look_at m2 t2 q y)).
Proof.
  intros Henv E Hs Hc Hne Hi Hb prog' t'. pose proof (run_step _ _ _ _ _ _ E (step_attach st s c n nc t tc p k cs i Hs Hc Hne Hi Hb)) as E'.
  assert (Hsc : s <> c). { intros ->. by destruct (holds_fun _ _ _ _ _ _ _ _ _ _ _ _ Hs Hc) as [? _]. }
  pose proof Hs as (_&S2&S3). eexists. split; [exact E'|]. fold prog' in E'.
  assert (Hsame : forall u q y, u <> c -> holds st u n true t q y ->
       shows env prog' u (look_at true t' (pos_inserted p i q) (match strip q p with Some r => tinsert_child y r i tc | None => y end))).
  { intros u q y Huc Hu. eapply holds_shows; [done|exact E'|]. by eapply holds_attach_same. }
  split_and!; [|exact Hsame| |].
  - specialize (Hsame s p (Node k cs) Hsc Hs). rewrite pos_inserted_self in Hsame. pose proof (strip_app p []) as Ep. rewrite app_nil_r in Ep. rewrite Ep in Hsame. exact Hsame.
  - intros u q y Huc Hu. eapply holds_shows; [done|exact E'|]. by eapply holds_attach_new.
  - intros u n2 m2 t2 q y Huc Hu H1 H2. eapply holds_shows; [done|exact E'|]. by eapply holds_attach_other.
Qed.
Print Assumptions c35_insert.
Theorem c35_text t p i k cs new : tsub t p = Some (Node k cs) ->
  exists q, ttext t = tbefore t (p ++ [i]) ++ q /\ ttext (tinsert_child t p i new) = tbefore t (p ++ [i]) ++ ttext new ++ q.
Proof. exact (tinsert_text t p i k cs new). Qed.
Print Assumptions c35_text.
(** whatever is inserted is first detached from where it was *)
Theorem c35_detaches env prog st os s c i : henv_ok env -> s_run prog s_init = SOk (st, os) -> typed (OSplice s i i [c]) st ->
  match s_run (prog ++ [OSplice s i i [c]]) s_init with
  | SOk (st', os') =>
      exists os2, s_run (prog ++ [ODetach c; OSplice s i i [c]]) s_init = SOk (st', os2) /\
      forall u l, full st' u -> shows env (prog ++ [OSplice s i i [c]]) u l <-> shows env (prog ++ [ODetach c; OSplice s i i [c]]) u l
  | SPanic => s_run (prog ++ [ODetach c; OSplice s i i [c]]) s_init = SPanic
  | SStuck => s_run (prog ++ [ODetach c; OSplice s i i [c]]) s_init = SStuck
  | SIll => False
  end.
Proof.
  intros Henv E Ht. pose proof (run_wf _ _ _ E) as Hwf. pose proof Ht as (_&_&_&Hf). rewrite Forall_singleton in Hf. destruct Hf as [hc Hc].
  pose proof (splice_detaches s i c st hc Hwf Ht Hc) as Hd. pose proof (typed_step _ st Hwf : good (typed (OSplice s i i [c]) st) _ _) as Hg.
  rewrite !s_run_app, E. cbn [mbind sres_bind s_run].
  destruct (s_step (OSplice s i i [c]) st) as [[st' x]| | |] eqn:E1; cbn [mbind sres_bind].
  - symmetry in Hd. apply bind_ok in Hd as ([st1 y]&Ed&Hd). rewrite Ed. cbn [mbind sres_bind]. rewrite Hd. cbn [mbind sres_bind]. eexists. split; [done|].
    assert (A : s_run (prog ++ [OSplice s i i [c]]) s_init = SOk (st', os ++ [x])) by (by eapply run_step).
    assert (B : s_run (prog ++ [ODetach c; OSplice s i i [c]]) s_init = SOk (st', os ++ [y; x])).
    { rewrite s_run_app, E. cbn [mbind sres_bind s_run]. rewrite Ed. cbn [mbind sres_bind]. by rewrite Hd. }
    intros u l [h Hh]. rewrite (shows_iff env Henv _ _ _ _ _ _ A Hh), (shows_iff env Henv _ _ _ _ _ _ B Hh). done.
  - destruct (s_step (ODetach c) st) as [[st1 y]| | |]; cbn [mbind sres_bind] in *; try done. by rewrite <- Hd.
  - destruct (s_step (ODetach c) st) as [[st1 y]| | |]; cbn [mbind sres_bind] in *; try done. by rewrite <- Hd.
  - by apply Hg.
Qed.
Print Assumptions c35_detaches.
(** beyond the end; also when the text would get too long *)
Theorem c35_panics env prog st os s c n nc t tc p k cs i : henv_ok env -> s_run prog s_init = SOk (st, os) ->
  holds st s n true t p (Node k cs) -> holds st c nc true tc [] tc -> n <> nc ->
  length cs < i \/ (u32_max < blen (ttext (tinsert_child t p i tc)))%N ->
  (client env (prog ++ [OSplice s i i [c]])).1 = Err Panic.
Proof. intros Henv E Hs Hc Hne Hb. eapply step_panic; [done|exact E|by eapply step_attach_panic]. Qed.
Print Assumptions c35_panics.
Example c35_nonvacuous : holds demo_st 1 0 true t12 [0] t10 /\ holds demo_st 6 1 true t10 [] t10 /\ N.le (blen (ttext (tinsert_child t12 [0] 1 t10))) u32_max /\
  typed (OSplice 2 0 0 [1]) demo_st /\
  shows bump_env (demo ++ [OSplice 1 1 1 [6]]) 1 (Look true (Some 0) 10 (0, 6)%N (Node 10 [t_ab; t10; Token 2 [99]%N])) /\
  shows bump_env (demo ++ [OSplice 2 0 0 [1]]) 0 (Look true None 12 (0, 8)%N (Node 12 [Node 11 [t10]; t_ab; t10])) /\
  shows bump_env (demo ++ [OSplice 2 0 0 [1]]) 5 (Look true (Some 0) 1 (0, 2)%N t_ab).
Proof. split_and!; try (by vm_compute); try (apply shows_check; by vm_compute). apply typedb_ok. by vm_compute. Qed.

(** ** C36 *)
(** what [splice_children(a..b, els)] does, for roots [els] of other trees: the children
    before [a], the new ones, and the old ones from [a] on except at most one *)
Theorem c36_splice_exact env prog st os s a b ins tcs n t p k cs : henv_ok env -> s_run prog s_init = SOk (st, os) ->
  holds st s n true t p (Node k cs) -> a <= length cs -> s ∉ ins -> roots_in st ins tcs -> NoDup ins -> NoDup (n :: map fst tcs) ->
  let keep := if (a <? b) && (a <? length cs) then S a else a in
  let x' := Node k (take a cs ++ map snd tcs ++ drop keep cs) in
  (blen (ttext (treplace t p x')) <= u32_max)%N ->
  shows env (prog ++ [OSplice s a b ins]) s (look_at true (treplace t p x') p x').
Proof.
  intros Henv E (H1&H2&H3) Ha Hs HF Hnd Hnt keep x' Hb. pose proof (run_wf _ _ _ E) as Hwf.
  destruct (s_splice_effect s a b ins tcs st n p t k cs Hwf H1 H2 H3 Ha Hs HF Hnd Hnt Hb) as (st'&E1&E2&_&_&E5&_).
  assert (Ho : s_step (OSplice s a b ins) st = SOk (st', None)) by (cbn [s_step]; by rewrite E1).
  eapply holds_shows; [done|exact (run_step _ _ _ _ _ _ E Ho)|]. split_and!; [|exact E2|by eapply treplace_sub].
  rewrite (E5 s Hs), H1. cbn [fmap option_fmap option_map]. do 2 f_equal.
  assert (Es : strip p p = Some []) by (apply strip_some; by rewrite app_nil_r).
  assert (Hd : detach_handle n (length (s_trees st)) p a (@pair nat pos n p) = (@pair nat pos n p)).
  { unfold detach_handle. cbn [fst snd]. by rewrite Nat.eqb_refl, pos_removed_self. }
  assert (Hsp : splice_handle n p a (map fst tcs) (@pair nat pos n p) = (@pair nat pos n p)).
  { unfold splice_handle. cbn [fst snd]. by rewrite Nat.eqb_refl, Es. }
  destruct ((a <? b) && (a <? length cs)); [rewrite Hd|]; exact Hsp.
Qed.
Print Assumptions c36_splice_exact.
(** the claim holds if the range has at most one child in it (missing: longer ranges,
    for which it is false, see [c36_refuted]) *)
Theorem c36_splice_partial env prog st os s a b ins tcs n t p k cs : henv_ok env -> s_run prog s_init = SOk (st, os) ->
  holds st s n true t p (Node k cs) -> a <= b -> b <= length cs -> s ∉ ins -> roots_in st ins tcs -> NoDup ins -> NoDup (n :: map fst tcs) ->
  let x' := Node k (take a cs ++ map snd tcs ++ drop b cs) in
  (blen (ttext (treplace t p x')) <= u32_max)%N ->
  b <= S a ->
  shows env (prog ++ [OSplice s a b ins]) s (look_at true (treplace t p x') p x').
Proof.
  intros Henv E Hs Hab Hbl Hsn HF Hnd Hnt x' Hb Hle.
  assert (Ek : (if (a <? b) && (a <? length cs) then S a else a) = b).
  { destruct (Nat.ltb_spec a b), (Nat.ltb_spec a (length cs)); simpl; lia. }
  pose proof (c36_splice_exact env prog st os s a b ins tcs n t p k cs Henv E Hs ltac:(lia) Hsn HF Hnd Hnt) as H. cbv zeta in H. rewrite Ek in H. by apply H.
Qed.
Print Assumptions c36_splice_partial.
Theorem c36_refuted : exists prog st os s a b n t p k cs,
  s_run prog s_init = SOk (st, os) /\ holds st s n true t p (Node k cs) /\ a <= b /\ b <= length cs /\
  let wanted := Node k (take a cs ++ drop b cs) in
  ~ shows bump_env (prog ++ [OSplice s a b []]) s (look_at true (treplace t p wanted) p wanted).
Proof.
  exists demo, demo_st, demo_os, 0, 0, 2, 0, t12, [], 12%N, [t10; Node 11 []; t_ab; t10]. split_and!; [by vm_compute|by vm_compute|lia|simpl; lia|].
  intros wanted H. assert (H' : shows bump_env (demo ++ [OSplice 0 0 2 []]) 0 (Look true None 12 (0, 5)%N (Node 12 [Node 11 []; t_ab; t10]))).
  { apply shows_check. by vm_compute. }
  pose proof (shows_fun _ _ _ _ _ H H') as E. vm_compute in E. discriminate.
Qed.
Print Assumptions c36_refuted.
(** the call is the same as a sequence of single insertions, after the detaching of at
    most one child; with C34 and C35 this says what becomes of every other handle *)
Theorem c36_sequence env prog st os s a b ins n t p k cs d x : henv_ok env -> s_run prog s_init = SOk (st, os) ->
  holds st s n true t p (Node k cs) -> NoDup ins -> s ∉ ins -> Forall (full st) ins ->
  a < b /\ holds st d n true t (p ++ [a]) x \/ ~ (a < b /\ a < length cs) ->
  let seq := (if a <? b then if a <? length cs then [ODetach d] else [] else []) ++ splices s a ins in
  sfst (s_run (prog ++ [OSplice s a b ins]) s_init) = sfst (s_run (prog ++ seq) s_init) /\
  forall st' os', s_run (prog ++ [OSplice s a b ins]) s_init = SOk (st', os') ->
    forall u l, full st' u -> shows env (prog ++ [OSplice s a b ins]) u l <-> shows env (prog ++ seq) u l.
Proof.
  intros Henv E Hs Hnd Hsn Hf Hd seq. pose proof (run_wf _ _ _ E) as Hwf. destruct (splice_sequence s a b ins st n t p k cs Hwf Hs Hnd Hsn Hf) as [G1 G2].
  assert (Heq : sfst (s_step (OSplice s a b ins) st) = sfst (s_run seq st)).
  { destruct Hd as [[Hab Hd]|Hd].
    - rewrite (G2 d x Hab Hd). unfold seq. assert (Ha : a < length cs).
      { pose proof (proj2 (proj2 Hd)) as E'. rewrite tsub_app, (proj2 (proj2 Hs)) in E'. simpl in E'. destruct (cs !! a) eqn:E2; [by apply lookup_lt_Some in E2|done]. }
      apply Nat.ltb_lt in Hab. apply Nat.ltb_lt in Ha. by rewrite Hab, Ha.
    - rewrite (G1 Hd). unfold seq. destruct (Nat.ltb_spec a b), (Nat.ltb_spec a (length cs)); try done. lia. }
  assert (Hrun : sfst (s_run (prog ++ [OSplice s a b ins]) s_init) = sfst (s_run (prog ++ seq) s_init)).
  { rewrite !s_run_app, E. cbn [mbind sres_bind s_run]. revert Heq. unfold sfst. destruct (s_step (OSplice s a b ins) st) as [[st1 y]| | |], (s_run seq st) as [[st2 z]| | |]; simpl; congruence. }
  split; [exact Hrun|]. intros st' os' E' u l [h Hh]. rewrite E' in Hrun. cbn [sfst mbind sres_bind] in Hrun.
  destruct (s_run (prog ++ seq) s_init) as [[st2 os2]| | |] eqn:E2; try done. unfold sfst in Hrun. cbn [mbind sres_bind] in Hrun. injection Hrun as <-.
  rewrite (shows_iff env Henv _ _ _ _ _ _ E' Hh), (shows_iff env Henv _ _ _ _ _ _ E2 Hh). done.
Qed.
Print Assumptions c36_sequence.
Example c36_nonvacuous : holds demo_st 0 0 true t12 [] t12 /\ roots_in demo_st [6] [(1, t10)] /\ holds demo_st 2 0 true t12 ([] ++ [1]) (Node 11 []) /\
  (if 1 <? 2 then if 1 <? 4 then [ODetach 2] else [] else []) ++ splices 0 1 [6; 3] = [ODetach 2; OSplice 0 1 1 [6]; OSplice 0 2 2 [3]] /\
  shows bump_env (demo ++ [OSplice 0 1 2 [6]]) 0 (Look true None 12 (0, 11)%N (Node 12 [t10; t10; t_ab; t10])).
Proof. split_and!; try (by vm_compute); [|apply shows_check; by vm_compute]. constructor; [by vm_compute|constructor]. Qed.

(** ** C37 *)
(** [for c in s.children() { c.detach() }] detaches the first child and ends *)
Theorem c37_children_exact env prog st os tok s n t p k cs : henv_ok env -> s_run prog s_init = SOk (st, os) ->
  holds st s n true t p (Node k cs) ->
  shows env (prog ++ [ODetachKids tok s]) s
    (match first_at (kid_sel tok) cs 0 with
     | Some j => let x' := Node k (take j cs ++ drop (S j) cs) in look_at true (treplace t p x') p x'
     | None => look_at true t p (Node k cs)
     end).
Proof.
  intros Henv E Hs. pose proof (run_step _ _ _ _ _ _ E (step_detach_kids tok s st n t p k cs Hs)) as E'.
  destruct (first_at (kid_sel tok) cs 0) as [j|] eqn:Ej; [|by eapply holds_shows]. destruct (first_at_lt _ _ _ _ Ej) as (x&Hj&_&_). rewrite Hj in E'.
  assert (Hx : tsub t (p ++ [j]) = Some x). { rewrite tsub_app, (proj2 (proj2 Hs)). simpl. by rewrite Hj. }
  pose proof (holds_detach_rest st n p j t x s p p _ (proj1 (proj2 Hs)) Hx Hs (pos_removed_self p j)) as Hs1.
  pose proof (strip_app p []) as Es. rewrite app_nil_r in Es. rewrite Es in Hs1. cbn [tdelete_child tsub treplace] in Hs1.
  rewrite (tdelete_eq _ _ _ _ _ (proj2 (proj2 Hs))) in Hs1. eapply holds_shows; [done|exact E'|exact Hs1].
Qed.
Print Assumptions c37_children_exact.
Theorem c37_refuted : exists prog st os s n t p k cs,
  s_run prog s_init = SOk (st, os) /\ holds st s n true t p (Node k cs) /\
  let wanted := Node k (List.filter (fun c => negb (is_node c)) cs) in
  ~ shows bump_env (prog ++ [ODetachKids false s]) s (look_at true (treplace t p wanted) p wanted).
Proof.
  exists demo, demo_st, demo_os, 0, 0, t12, [], 12%N, [t10; Node 11 []; t_ab; t10]. split_and!; [by vm_compute|by vm_compute|].
  intros wanted H. assert (H' : shows bump_env (demo ++ [ODetachKids false 0]) 0 (Look true None 12 (0, 5)%N (Node 12 [Node 11 []; t_ab; t10]))).
  { apply shows_check. by vm_compute. }
  pose proof (shows_fun _ _ _ _ _ H H') as E. vm_compute in E. discriminate.
Qed.
Print Assumptions c37_refuted.
(** over [children().by_kind(m)] (or with tokens) the loop does what is promised *)
Theorem c37_by_kind env prog st os tok m s n t p k cs : henv_ok env -> s_run prog s_init = SOk (st, os) ->
  holds st s n true t p (Node k cs) ->
  let f := kid_sel_kind tok m in
  let x' := Node k (List.filter (fun c => negb (f c)) cs) in
  let prog' := prog ++ [ODetachByKind tok m s] in
  shows env prog' s (look_at true (treplace t p x') p x') /\
  (* every one of them is now a root, and handles below it have come along *)
  (forall u j c r y, cs !! j = Some c -> f c = true -> holds st u n true t (p ++ j :: r) y -> shows env prog' u (look_at true c r y)) /\
  (* the other children are where they should be *)
  (forall u j c r y, cs !! j = Some c -> f c = false -> holds st u n true t (p ++ j :: r) y ->
     shows env prog' u (look_at true (treplace t p x') (p ++ (j - matching_before f cs j) :: r) y)).
Proof.
  intros Henv E Hs f x' prog'. pose proof (run_wf _ _ _ E) as Hwf. pose proof (run_step _ _ _ _ _ _ E (step_detach_by_kind tok m s st n t p k cs Hwf Hs)) as E'. fold f x' prog' in E'.
  pose proof Hs as (H1&H2&H3). pose proof (lookup_lt_Some _ _ _ H2) as Hlt.
  assert (Hn : (<[n:=(true, treplace t p x')]> (s_trees st) ++ map (pair true) (List.filter f cs)) !! n = Some (true, treplace t p x')).
  { rewrite lookup_app_l by (by rewrite insert_length). by apply list_lookup_insert. }
  split_and!.
  - eapply holds_shows; [done|exact E'|]. split_and!; cbn [s_handles s_trees]; [|exact Hn|by eapply treplace_sub].
    rewrite move_lookup, H1. cbn [fmap option_fmap option_map]. do 2 f_equal. unfold kids_handle. cbn [fst snd]. rewrite Nat.eqb_refl.
    replace (strip p p) with (Some (@nil nat)); [done|]. symmetry. apply strip_some. by rewrite app_nil_r.
  - intros u j c r y Hj Hf (U1&U2&U3). eapply holds_shows; [done|exact E'|]. split_and!; cbn [s_handles s_trees].
    + rewrite move_lookup, U1. cbn [fmap option_fmap option_map]. do 2 f_equal. unfold kids_handle. cbn [fst snd]. rewrite Nat.eqb_refl, strip_app, Hj, Hf. done.
    + rewrite lookup_app_r by (rewrite insert_length; lia). rewrite insert_length. replace (length (s_trees st) + matching_before f cs j - length (s_trees st)) with (matching_before f cs j) by lia.
      unfold matching_before. change (map (pair true) (List.filter f cs)) with (pair true <$> List.filter f cs). by rewrite list_lookup_fmap, (filter_nth f cs j c Hj Hf).
    + rewrite tsub_app, H3 in U3. simpl in U3. by rewrite Hj in U3.
  - intros u j c r y Hj Hf (U1&U2&U3). eapply holds_shows; [done|exact E'|]. split_and!; cbn [s_handles s_trees]; [|exact Hn|].
    + rewrite move_lookup, U1. cbn [fmap option_fmap option_map]. do 2 f_equal. unfold kids_handle. cbn [fst snd]. rewrite Nat.eqb_refl, strip_app, Hj, Hf. done.
    + rewrite (treplace_below _ _ _ _ _ H3). rewrite tsub_app, H3 in U3. simpl in U3. rewrite Hj in U3. simpl.
      assert (Hnth : forall l i z, l !! i = Some z -> f z = false -> List.filter (fun c => negb (f c)) l !! (i - length (List.filter f (take i l))) = Some z).
      { clear. intros l. induction l as [|w l IH]; intros i z Hi Hz; [done|]. destruct i as [|i]; simpl in *; [injection Hi as ->; by rewrite Hz|].
        destruct (f w) eqn:Ew; simpl; [by apply IH|]. pose proof (filter_length_le' f (take i l)) as Hl. rewrite take_length in Hl.
        replace (S i - length (List.filter f (take i l))) with (S (i - length (List.filter f (take i l)))) by lia. by apply IH. }
      unfold matching_before. by rewrite (Hnth cs j c Hj Hf).
Qed.
Print Assumptions c37_by_kind.
Example c37_nonvacuous : holds demo_st 0 0 true t12 [] t12 /\ holds demo_st 5 0 true t12 ([] ++ 0 :: [0]) t_ab /\ kid_sel_kind false (N.eqb 10) t10 = true /\
  shows bump_env (demo ++ [ODetachByKind false (N.eqb 10) 0]) 0 (Look true None 12 (0, 2)%N (Node 12 [Node 11 []; t_ab])) /\
  shows bump_env (demo ++ [ODetachByKind false (N.eqb 10) 0]) 4 (Look true None 10 (0, 3)%N t10).
Proof. split_and!; try (by vm_compute); apply shows_check; by vm_compute. Qed.

(** ** C38 *)
(** whatever happens for however long, as long as no mutating call gets a handle of the tree *)
Theorem c38_other_trees env prog later st os st' os' u n m t p x : henv_ok env -> s_run prog s_init = SOk (st, os) ->
  holds st u n m t p x -> never_mutates n later st -> s_run (prog ++ later) s_init = SOk (st', os') -> full st' u ->
  shows env (prog ++ later) u (look_at m t p x).
Proof.
  intros Henv E H Hn E' Hf. pose proof (run_wf _ _ _ E) as Hwf. eapply holds_shows; [done|exact E'|]. rewrite s_run_app, E in E'. cbn [mbind sres_bind] in E'.
  apply bind_ok in E' as ([st1 os1]&E1&E'). injection E' as <- <-. by eapply never_mutates_run.
Qed.
Print Assumptions c38_other_trees.
(** immutable trees: always *)
Theorem c38_immutable env prog later st os st' os' u n t p x : henv_ok env -> s_run prog s_init = SOk (st, os) ->
  holds st u n false t p x -> s_run (prog ++ later) s_init = SOk (st', os') -> full st' u ->
  shows env (prog ++ later) u (look_at false t p x).
Proof.
  intros Henv E (H1&H2&H3) E' [h' Hf]. pose proof (run_wf _ _ _ E) as Hwf. eapply holds_shows; [done|exact E'|]. rewrite s_run_app, E in E'. cbn [mbind sres_bind] in E'.
  apply bind_ok in E' as ([st1 os1]&E1&E'). injection E' as <- <-. destruct (run_mkeep _ _ _ _ Hwf E1) as [(K1&_&_&K4) _].
  assert (h' = (@pair nat pos n p)) as -> by (eapply (K4 u (@pair nat pos n p)); [exact H1|exact H2|exact Hf]). split_and!; [done|by apply K1|done].
Qed.
Print Assumptions c38_immutable.
(** the green trees in the client's variables *)
Theorem c38_greens env prog st os st' os' o g t : henv_ok env -> s_run prog s_init = SOk (st, os) -> is_Some (mutates o) ->
  s_run (prog ++ [o]) s_init = SOk (st', os') -> s_greens st !! g = Some (Some t) ->
  is_node t = true ->
  shows env (prog ++ [ORoot false g]) (length (s_handles st)) (look_at false t [] t) /\
  shows env (prog ++ [o; ORoot false g]) (length (s_handles st')) (look_at false t [] t).
Proof.
  intros Henv E [[slots used] Hm] E' Hg Hn. rewrite s_run_app, E in E'. cbn [mbind sres_bind s_run] in E'. destruct (s_step o st) as [[st1 x]| | |] eqn:Ho; try done.
  cbn [mbind sres_bind] in E'. injection E' as <- <-.
  assert (Hroot : forall st0, s_greens st0 !! g = Some (Some t) -> s_step (ORoot false g) st0 = SOk (add_handle (Some (@pair nat pos (length (s_trees st0)) [])) (add_tree false t st0), None)).
  { intros st0 H0. cbn [s_step]. rewrite H0. cbn [of_slot mbind sres_bind]. by rewrite Hn. }
  split.
  - eapply holds_shows; [done|exact (run_step _ _ _ _ _ _ E (Hroot st Hg))|]. by apply (holds_new false t [] t st).
  - assert (Hg1 : s_greens st1 !! g = Some (Some t)). { destruct (mutation_frame o st st1 x slots used Hm Ho) as (_&_&_&_&->&_). done. }
    change [o; ORoot false g] with ([o] ++ [ORoot false g]). rewrite app_assoc.
    eapply holds_shows; [done|exact (run_step _ _ _ _ _ _ (run_step _ _ _ _ _ _ E Ho) (Hroot st1 Hg1))|]. by apply (holds_new false t [] t st1).
Qed.
Print Assumptions c38_greens.
Example c38_nonvacuous : let later := [OSplice 2 0 0 [1]; ODetach 4; ONav NFirstChild 6; ODrop 8] in
  holds demo_st 6 1 true t10 [] t10 /\ never_mutates 1 later demo_st /\ holds demo_st 7 2 false t12 [] t12 /\
  (exists st' os', s_run (demo ++ later) s_init = SOk (st', os') /\ full st' 6 /\ full st' 7) /\ s_greens demo_st !! 4 = Some (Some t12).
Proof.
  intros later. split_and!; try (by vm_compute); [apply never_mutatesb_ok; by vm_compute|]. eexists _, _. split; [by vm_compute|]. split; apply fullb_ok; by vm_compute.
Qed.

(** ** C39 *)
Theorem c39_detach env prog st os s n t p x hs h : henv_ok env -> s_run prog s_init = SOk (st, os) -> holds st s n false t p x ->
  client env prog = (Ok (hs, os), h) -> client env (prog ++ [ODetach s]) = (Err Panic, h).
Proof.
  intros Henv E (H1&H2&_) Hc. destruct (reach env Henv _ _ _ E) as (hs0&h0&Hc0&Hs&_). rewrite Hc in Hc0. injection Hc0 as <- <-.
  rewrite (client_step env prog hs os h _ Hc). by rewrite (detach_imm env st hs h s n p t Hs H1 H2).
Qed.
Print Assumptions c39_detach.
Theorem c39_splice env prog st os s a b ins n t p x hs h : henv_ok env -> s_run prog s_init = SOk (st, os) -> holds st s n false t p x -> Forall (full st) ins ->
  client env prog = (Ok (hs, os), h) -> client env (prog ++ [OSplice s a b ins]) = (Err Panic, h).
Proof.
  intros Henv E (H1&H2&_) Hf Hc. destruct (reach env Henv _ _ _ E) as (hs0&h0&Hc0&Hs&_). rewrite Hc in Hc0. injection Hc0 as <- <-.
  rewrite (client_step env prog hs os h _ Hc). by rewrite (splice_imm env st hs h s a b ins n p t Hs H1 H2 Hf).
Qed.
Print Assumptions c39_splice.
(** what a variable holds never changes its mutability *)
Theorem c39_constant env prog later st os st' os' s l l' : henv_ok env -> s_run prog s_init = SOk (st, os) -> s_run (prog ++ later) s_init = SOk (st', os') ->
  full st s -> full st' s -> shows env prog s l -> shows env (prog ++ later) s l' -> l_mut l' = l_mut l.
Proof.
  intros Henv E E' Hf Hf' Hl Hl'. pose proof (run_wf _ _ _ E) as Hwf. destruct (shows_holds env Henv _ _ _ _ _ E Hf Hl) as (n&m&t&p&x&(H1&H2&_)&->).
  destruct (shows_holds env Henv _ _ _ _ _ E' Hf' Hl') as (n'&m'&t'&p'&x'&(H1'&H2'&_)&->). rewrite s_run_app, E in E'. cbn [mbind sres_bind] in E'.
  apply bind_ok in E' as ([st1 os1]&E1&E'). injection E' as <- <-. destruct (run_mkeep _ _ _ _ Hwf E1) as [(_&K2&_&_) _].
  pose proof (K2 s _ _ H1 H1') as Em. cbn [fst] in Em. rewrite H2, H2' in Em. simpl in Em. by injection Em as ->.
Qed.
Print Assumptions c39_constant.
(** wherever one navigates, the mutability is the same *)
Theorem c39_uniform env prog st os st' os' s nv l l' : henv_ok env -> s_run prog s_init = SOk (st, os) -> full st s ->
  s_run (prog ++ [ONav nv s]) s_init = SOk (st', os') -> full st' (length (s_handles st)) ->
  shows env prog s l -> shows env (prog ++ [ONav nv s]) (length (s_handles st)) l' -> l_mut l' = l_mut l.
Proof.
  intros Henv E Hf E' Hf' Hl Hl'. destruct (shows_holds env Henv _ _ _ _ _ E Hf Hl) as (n&m&t&p&x&(H1&H2&_)&->).
  destruct (shows_holds env Henv _ _ _ _ _ E' Hf' Hl') as (n'&m'&t'&p'&x'&(H1'&H2'&_)&->).
  rewrite s_run_app, E in E'. cbn [mbind sres_bind s_run s_step] in E'. rewrite H1 in E'. cbn [of_slot mbind sres_bind fst snd] in E'. rewrite H2 in E'.
  destruct (s_nav nv t p) as [o| | |]; cbn [mbind sres_bind] in E'; try done. injection E' as <- _. cbn [s_handles s_trees add_handle] in H1', H2'.
  rewrite lookup_app_r, Nat.sub_diag in H1' by done. destruct o as [q|]; [|done]. cbn in H1'. injection H1' as <- <-. rewrite H2 in H2'. by injection H2' as <- _.
Qed.
Print Assumptions c39_uniform.
Example c39_nonvacuous : holds demo_st 8 2 false t12 [0] t10 /\ Forall (full demo_st) [1; 6] /\
  (client bump_env (demo ++ [ODetach 8])).1 = Err Panic /\ (client bump_env (demo ++ [OSplice 8 0 1 [6]])).1 = Err Panic /\
  shows bump_env (demo ++ [ONav NNextSibling 8]) 9 (Look false (Some 1) 11 (3, 3)%N (Node 11 [])).
Proof. split_and!; try (by vm_compute); [|apply shows_check; by vm_compute]. repeat constructor; apply fullb_ok; by vm_compute. Qed.

(** ** C41 *)
(** when all variables are empty: no node data and, with the green variables empty too,
    no green node is left *)
Theorem c41_no_leak env prog st os : henv_ok env -> s_run prog s_init = SOk (st, os) -> never_from_root prog s_init ->
  (forall o, o ∈ s_handles st -> o = None) ->
  exists hs h, client env prog = (Ok (hs, os), h) /\ hn h = ∅ /\ ((forall o, o ∈ s_greens st -> o = None) -> ow h = []).
Proof.
  intros Henv E Hn Hh. destruct (reach env Henv _ _ _ E) as (hs&h&Hc&Hs&_). exists hs, h. split; [done|]. pose proof (run_no_leak _ _ _ _ Hn E) as Hl.
  destruct (sim_end st hs h Hs Hh) as [H1 H2]. rewrite Hl in H1. split; [by apply map_size_empty_inv|]. intros Hg. by apply H2.
Qed.
Print Assumptions c41_no_leak.
(** in general exactly the counted root objects stay behind *)
Theorem c41_exact env prog st os : henv_ok env -> s_run prog s_init = SOk (st, os) -> (forall o, o ∈ s_handles st -> o = None) ->
  exists hs h, client env prog = (Ok (hs, os), h) /\ size (hn h) = length (s_leaked st) /\
    (s_leaked st = [] -> (forall o, o ∈ s_greens st -> o = None) -> ow h = []).
Proof.
  intros Henv E Hh. destruct (reach env Henv _ _ _ E) as (hs&h&Hc&Hs&_). exists hs, h. split; [done|]. by apply (sim_end st hs h Hs Hh).
Qed.
Print Assumptions c41_exact.
Example c41_nonvacuous : exists prog st os, prog = demo ++ [ODetach 1; OSplice 2 0 0 [1]; OToNext true 5; OCloneForUpdate 8] ++ map ODrop [0; 2; 3; 4; 9; 6; 7; 8; 10] /\
  s_run prog s_init = SOk (st, os) /\ never_from_root prog s_init /\ forall o, o ∈ s_handles st -> o = None.
Proof.
  eexists _, _, _. split; [done|]. split; [by vm_compute|]. split.
  - apply never_from_rootb_ok. by vm_compute.
  - intros o Ho. repeat (apply elem_of_cons in Ho as [->|Ho]; [done|]). by apply elem_of_nil in Ho.
Qed.
(** [to_next_sibling] on the only handle of an immutable root forgets the root *)
Theorem c41_refuted : exists prog st os hs h, typed_run prog s_init /\ s_run prog s_init = SOk (st, os) /\
  (forall o, o ∈ s_handles st -> o = None) /\ (forall o, o ∈ s_greens st -> o = None) /\
  client bump_env prog = (Ok (hs, os), h) /\ hn h <> ∅ /\ ow h <> [].
Proof.
  pose (prog := [OGreenNode 1 []; ORoot false 0; OGreenDrop 0; OToNext false 0]).
  assert (E : exists st os, s_run prog s_init = SOk (st, os) /\ s_handles st = [None; None] /\ s_greens st = [None]). { eexists _, _. by vm_compute. }
  destruct E as (st&os&E&Eh&Eg). destruct (reach bump_env bump_env_ok _ _ _ E) as (hs&h&Hc&_). exists prog, st, os, hs, h. split_and!; [|done| | |done| |].
  - apply typed_runb_ok. by vm_compute.
  - intros o. rewrite Eh. intros Ho. repeat (apply elem_of_cons in Ho as [->|Ho]; [done|]). by apply elem_of_nil in Ho.
  - intros o. rewrite Eg. intros Ho. repeat (apply elem_of_cons in Ho as [->|Ho]; [done|]). by apply elem_of_nil in Ho.
  - assert (Hz : size (hn (client bump_env prog).2) = 1) by (by vm_compute). rewrite Hc in Hz. cbn [snd] in Hz. intros Hem. rewrite Hem in Hz. done.
  - assert (Hz : length (ow (client bump_env prog).2) = 1) by (by vm_compute). rewrite Hc in Hz. cbn [snd] in Hz. intros Hem. by rewrite Hem in Hz.
Qed.
Print Assumptions c41_refuted.

(** ** C42 *)
(** variables that hold the same element of a mutable tree hold the same node object;
    variables that hold the same node object hold the same element *)
Theorem c42_unique env prog st os s1 s2 n t p x : henv_ok env -> s_run prog s_init = SOk (st, os) ->
  holds st s1 n true t p x -> holds st s2 n true t p x ->
  exists hs h i, client env prog = (Ok (hs, os), h) /\ h_handles hs !! s1 = Some (Some i) /\ h_handles hs !! s2 = Some (Some i).
Proof.
  intros Henv E (H1&H2&_) (H1'&_&_). destruct (reach env Henv _ _ _ E) as (hs&h&Hc&Hs&_). pose proof (handle_unique st hs h s1 s2 n p t Hs H1 H1' H2) as Hu.
  destruct Hs as (zs&lk&Hsim). destruct (sim_slot _ _ _ _ _ _ _ _ Hsim H1) as (z&_&_&Hz&_). exists hs, h, z.1. split_and!; [done|done|]. by rewrite <- Hu.
Qed.
Print Assumptions c42_unique.
Theorem c42_distinct env prog st os s1 s2 n1 m1 t1 p1 x1 n2 m2 t2 p2 x2 hs h : henv_ok env -> s_run prog s_init = SOk (st, os) ->
  holds st s1 n1 m1 t1 p1 x1 -> holds st s2 n2 m2 t2 p2 x2 -> client env prog = (Ok (hs, os), h) -> h_handles hs !! s1 = h_handles hs !! s2 ->
  n1 = n2 /\ p1 = p2.
Proof.
  intros Henv E (H1&_) (H2&_) Hc He. destruct (reach env Henv _ _ _ E) as (hs0&h0&Hc0&Hs&_). rewrite Hc in Hc0. injection Hc0 as <- <-.
  pose proof (handle_distinct st hs h s1 s2 _ _ Hs H1 H2 He) as Eq. by injection Eq as -> ->.
Qed.
Print Assumptions c42_distinct.
(** the children of a mutable node form a ring that starts at its first child and is
    strictly sorted by index *)
Theorem c42_sorted env prog st os hs h x nd : henv_ok env -> s_run prog s_init = SOk (st, os) -> client env prog = (Ok (hs, os), h) ->
  hn h !! x = Some nd -> n_mut nd = true ->
  exists l, l ≡ₚ kids_of h x /\ n_first nd = head l /\ ring h l /\ StronglySorted lt (map (fun y => default 0 (n_idx <$> hn h !! y)) l).
Proof.
  intros Henv E Hc Hx Hm. destruct (reach env Henv _ _ _ E) as (hs0&h0&Hc0&Hs&_). rewrite Hc in Hc0. injection Hc0 as <- <-. by eapply sim_rings.
Qed.
Print Assumptions c42_sorted.
(** variables 2 and 9 are made in different ways; the root has four children objects *)
Example c42_nonvacuous : let prog := demo ++ [ONav NParent 5; ONav NNextSibling 9; ONav NLastChild 0] in
  exists st os, s_run prog s_init = SOk (st, os) /\ holds st 2 0 true t12 [1] (Node 11 []) /\ holds st 10 0 true t12 [1] (Node 11 []) /\
  match client bump_env prog with
  | (Ok (hs, _), h) => match h_handles hs !! 0 with
                       | Some (Some x) => (n_mut <$> hn h !! x) = Some true /\ length (kids_of h x) = 4 /\ h_handles hs !! 2 = h_handles hs !! 10
                       | _ => False end
  | _ => False
  end.
Proof. eexists _, _. split; [by vm_compute|]. split_and!; by vm_compute. Qed.

(** ** C43 *)
Theorem c43_to_next env prog st os tok s n m t p x : henv_ok env -> s_run prog s_init = SOk (st, os) -> holds st s n m t p x ->
  (tok = false -> is_node x = true) ->
  let nv := if tok then NNextSiblingOrToken else NNextSibling in
  let new := length (s_handles st) in
  exists st1 os1 st2 os2, s_run (prog ++ [OToNext tok s]) s_init = SOk (st1, os1) /\ s_run (prog ++ [ONav nv s]) s_init = SOk (st2, os2) /\
    (full st1 new <-> full st2 new) /\
    (forall l, full st2 new -> shows env (prog ++ [ONav nv s]) new l -> shows env (prog ++ [OToNext tok s]) new l) /\
    (forall u l, u <> s -> full st u -> shows env prog u l -> shows env (prog ++ [OToNext tok s]) u l).
Proof.
  intros Henv E H Htok nv new. pose proof (run_wf _ _ _ E) as Hwf. pose proof H as (H1&H2&H3).
  destruct (s_nav_typed nv t p x H3) as [o Ho]. { unfold nv. destruct tok; [done|]. intros _. by apply Htok. }
  assert (Hnav : s_step (ONav nv s) st = SOk (add_handle (pair n <$> o) st, None)).
  { cbn [s_step]. rewrite H1. cbn [of_slot mbind sres_bind fst snd]. rewrite H2. by rewrite Ho. }
  assert (Hnext : exists L, s_step (OToNext tok s) st = SOk (SS (s_trees st) (<[s:=None]> (s_handles st) ++ [pair n <$> o]) (s_greens st) L, None)).
  { cbn [s_step]. rewrite H1. cbn [of_slot mbind sres_bind fst snd]. rewrite H2. fold nv. rewrite Ho. cbn [mbind sres_bind].
    match goal with |- context [if ?b then _ else _] => destruct b end; eexists; reflexivity. }
  destruct Hnext as [L Hnext]. pose proof (run_step _ _ _ _ _ _ E Hnav) as E2. pose proof (run_step _ _ _ _ _ _ E Hnext) as E1.
  assert (K1 : (<[s:=None]> (s_handles st) ++ [pair n <$> o]) !! new = Some (pair n <$> o)).
  { rewrite lookup_app_r by (by rewrite insert_length). by rewrite insert_length, Nat.sub_diag. }
  assert (K2 : (s_handles st ++ [pair n <$> o]) !! new = Some (pair n <$> o)). { by rewrite lookup_app_r, Nat.sub_diag by done. }
  eexists _, _, _, _. split; [exact E1|]. split; [exact E2|]. split_and!.
  - unfold full. cbn [s_handles add_handle]. rewrite K1, K2. done.
  - intros l Hf Hl. destruct (shows_holds env Henv _ _ _ _ _ E2 Hf Hl) as (n'&m'&t'&p'&x'&(A1&A2&A3)&->). eapply holds_shows; [done|exact E1|].
    split_and!; [|done|done]. cbn [s_handles add_handle] in A1 |- *. rewrite K1. rewrite K2 in A1. done.
  - intros u l Hu Hf Hl. destruct (shows_holds env Henv _ _ _ _ _ E Hf Hl) as (n'&m'&t'&p'&x'&(A1&A2&A3)&->). eapply holds_shows; [done|exact E1|].
    split_and!; [|done|done]. cbn [s_handles]. apply lookup_app_l_Some. by rewrite list_lookup_insert_ne.
Qed.
Print Assumptions c43_to_next.
(** the object is overwritten in place: variable 9 is the only one on it *)
Example c43_nonvacuous : holds demo_st 8 2 false t12 [0] t10 /\
  shows bump_env (demo ++ [OToNext false 8]) 9 (Look false (Some 1) 11 (3, 3)%N (Node 11 [])) /\
  shows bump_env (demo ++ [OClone 8; OToNext false 8]) 9 (Look false (Some 0) 10 (0, 3)%N t10) /\
  match client bump_env demo, client bump_env (demo ++ [OToNext false 8]) with
  | (Ok (hs, _), _), (Ok (hs', _), _) => h_handles hs !! 8 = h_handles hs' !! 9 /\ h_handles hs' !! 8 = Some None
  | _, _ => False
  end.
Proof. split_and!; try (by vm_compute); apply shows_check; by vm_compute. Qed.

(** ** C44 *)
(** a call that type checks returns or panics, except for an insertion of a node below
    itself *)
Theorem c44_terminates env prog st os o : henv_ok env -> s_run prog s_init = SOk (st, os) -> typed o st ->
  (client env (prog ++ [o])).1 = Err Diverge ->
  exists s a b ins c, o = OSplice s a b ins /\ c ∈ ins /\ above st c s.
Proof.
  intros Henv E Ht Hd. pose proof (run_wf _ _ _ E) as Hwf. pose proof (c40_refines env (prog ++ [o]) Henv) as H.
  rewrite s_run_app, E in H. cbn [mbind sres_bind s_run] in H. pose proof (typed_step o st Hwf) as Hg.
  destruct (s_step o st) as [[st1 x]| | |] eqn:Eo; cbn [mbind sres_bind] in H.
  - destruct H as (hs&h&H). by rewrite H in Hd.
  - by rewrite H in Hd.
  - by eapply step_stuck.
  - by apply Hg in Ht.
Qed.
Print Assumptions c44_terminates.
(** ... and that insertion never returns *)
Theorem c44_never_returns env prog st os s i c ins n p t : henv_ok env -> s_run prog s_init = SOk (st, os) -> typed (OSplice s i i (c :: ins)) st ->
  s_handles st !! s = Some (Some (@pair nat pos n p)) -> s_trees st !! n = Some (true, t) -> above st c s ->
  (client env (prog ++ [OSplice s i i (c :: ins)])).1 = Err Panic \/ (client env (prog ++ [OSplice s i i (c :: ins)])).1 = Err Diverge.
Proof.
  intros Henv E Ht Hs Hn Ha. pose proof (run_wf _ _ _ E) as Hwf. pose proof (c40_refines env (prog ++ [OSplice s i i (c :: ins)]) Henv) as H.
  rewrite s_run_app, E in H. cbn [mbind sres_bind s_run] in H. by rewrite (splice_above s i c ins st n p t Hwf Ht Hs Hn Ha) in H.
Qed.
Print Assumptions c44_never_returns.
(** the loop itself: however long it is allowed to run, it has not finished *)
Theorem c44_loops env prog st os hs h s c n t p k cs i x y fuel : henv_ok env -> s_run prog s_init = SOk (st, os) -> client env prog = (Ok (hs, os), h) ->
  holds st s n true t p (Node k cs) -> holds st c n true t [] t -> h_handles hs !! s = Some (Some x) -> h_handles hs !! c = Some (Some y) ->
  let r := (h_attach_with env (h_respine_loop env fuel) x i y h).1 in r = Err Panic \/ r = Err Diverge.
Proof.
  intros Henv E Hc Hs Hcc Hx Hy r. destruct (reach env Henv _ _ _ E) as (hs0&h0&Hc0&Hsim&_). rewrite Hc in Hc0. injection Hc0 as <- <-.
  pose proof (cyclic_any_fuel env False st hs h s c n t p k cs i x y fuel Henv Hsim Hs Hcc Hx Hy ltac:(done)) as H. unfold wpx in H. unfold r.
  destruct (h_attach_with env (h_respine_loop env fuel) x i y h) as [[[]|e] h1]; [done|]. cbn [fst]. destruct H as [->|[-> _]]; auto.
Qed.
Print Assumptions c44_loops.
Theorem c44_refuted : exists prog s c st os hs h x,
  typed_run (prog ++ [OSplice s 0 0 [c]]) s_init /\ s_run prog s_init = SOk (st, os) /\ client bump_env prog = (Ok (hs, os), h) /\
  h_handles hs !! s = Some (Some x) /\ h_handles hs !! c = Some (Some x) /\
  (forall fuel, (h_attach_with bump_env (h_respine_loop bump_env fuel) x 0 x h).1 = Err Diverge) /\
  (client bump_env (prog ++ [OSplice s 0 0 [c]])).1 = Err Diverge.
Proof.
  pose (prog := [OGreenNode 0 []; ORoot true 0; OClone 0]).
  assert (E : exists st os, s_run prog s_init = SOk (st, os) /\ holds st 0 0 true (Node 0 []) [] (Node 0 []) /\ holds st 1 0 true (Node 0 []) [] (Node 0 [])).
  { eexists _, _. split; [by vm_compute|]. split; by vm_compute. }
  destruct E as (st&os&E&H0&H1). destruct (reach bump_env bump_env_ok _ _ _ E) as (hs&h&Hc&Hsim&_).
  destruct (c42_unique bump_env prog st os 0 1 _ _ _ _ bump_env_ok E H0 H1) as (hs1&h1&x&Hc1&Hx&Hy). rewrite Hc in Hc1. injection Hc1 as <- <-.
  exists prog, 0, 1, st, os, hs, h, x. split_and!; [apply typed_runb_ok; by vm_compute|done|done|done|done| |by vm_compute].
  assert (Hg : map gtext (ow (client bump_env prog).2) = [[]; []]) by (by vm_compute). rewrite Hc in Hg. cbn [snd] in Hg.
  intros fuel. pose proof (cyclic_any_fuel bump_env True st hs h 0 1 0 _ [] 0%N [] 0 x x fuel bump_env_ok Hsim H0 H1 Hx Hy) as H. unfold wpx in H.
  destruct (h_attach_with bump_env (h_respine_loop bump_env fuel) x 0 x h) as [[[]|e] h2]; cbn [fst].
  - exfalso. apply H. intros _. split; [|done]. apply textless_owned. intros g Hg'. apply (elem_of_list_fmap_1 gtext) in Hg'. change (gtext <$> po (P h)) with (map gtext (ow h)) in Hg'.
    rewrite Hg in Hg'. repeat (apply elem_of_cons in Hg' as [?|Hg']; [done|]). by apply elem_of_nil in Hg'.
  - destruct H as [->|[_ []]]; [|done|done]. intros _. split; [|done]. apply textless_owned. intros g Hg'. apply (elem_of_list_fmap_1 gtext) in Hg'. change (gtext <$> po (P h)) with (map gtext (ow h)) in Hg'.
    rewrite Hg in Hg'. repeat (apply elem_of_cons in Hg' as [?|Hg']; [done|]). by apply elem_of_nil in Hg'.
Qed.
Print Assumptions c44_refuted.
Example c44_nonvacuous : typed (OSplice 2 0 0 [0]) demo_st /\ above demo_st 0 2 /\ holds demo_st 2 0 true t12 [1] (Node 11 []) /\ holds demo_st 0 0 true t12 [] t12 /\
  (client bump_env (demo ++ [OSplice 2 0 0 [0]])).1 = Err Diverge.
Proof. split_and!; try (by vm_compute); [apply typedb_ok; by vm_compute|]. exists 0, [], [1]. by vm_compute. Qed.
