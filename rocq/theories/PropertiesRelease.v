(** * Properties of release builds: C74 *)
From Verif Require Import Release Refused HeapClient ScriptRun PropertiesHeap.

(** C74.  A release build (no overflow checks, no [debug_assert]s) does what a debug build
    does, as long as the debug build does not panic: the same variables, the same answers,
    the same memory. *)
Theorem c74_same env prog hs os h : @client Checked env prog = (Ok (hs, os), h) -> @client Wrapping env prog = (Ok (hs, os), h).
Proof.
  unfold client. intros E. destruct (a_run env prog h_init (HP ∅ [] 0)) as [H|H]; [by rewrite H|]. by rewrite E in H.
Qed.
Print Assumptions c74_same.
(** ... and so do the iterators, searches, editing and pointer functions ... *)
Theorem c74_script env {A} (p : script A) hs h hs' a h' :
  @hexec Checked env A p hs h = (Ok (hs', a), h') -> @hexec Wrapping env A p hs h = (Ok (hs', a), h').
Proof. intros E. destruct (a_exec env p hs h) as [H|H]; [by rewrite H|]. by rewrite E in H. Qed.
Print Assumptions c74_script.
(** ... and the functions that add up text sizes or levels of indentation themselves *)
Theorem c74_text env hs h fuel (t u : ptext) c o from to sink kfr kdbg sdbg alt v out :
  (forall hs' a h', @hexec Checked env _ (p_slice Checked t from to) hs h = (Ok (hs', a), h') ->
     @hexec Wrapping env _ (p_slice Wrapping t from to) hs h = (Ok (hs', a), h')) /\
  (forall hs' a h', @hexec Checked env _ (p_debug Checked sink kfr kdbg sdbg alt fuel v out) hs h = (Ok (hs', a), h') ->
     @hexec Wrapping env _ (p_debug Wrapping sink kfr kdbg sdbg alt fuel v out) hs h = (Ok (hs', a), h')) /\
  (forall hs' a h', @hexec Checked env _ (@p_find_char Checked fuel t c) hs h = (Ok (hs', a), h') ->
     @hexec Wrapping env _ (@p_find_char Wrapping fuel t c) hs h = (Ok (hs', a), h')) /\
  (forall hs' a h', @hexec Checked env _ (@p_char_at Checked fuel t o) hs h = (Ok (hs', a), h') ->
     @hexec Wrapping env _ (@p_char_at Wrapping fuel t o) hs h = (Ok (hs', a), h')) /\
  (forall hs' a h', @hexec Checked env _ (@p_text_eq Checked fuel t u) hs h = (Ok (hs', a), h') ->
     @hexec Wrapping env _ (@p_text_eq Wrapping fuel t u) hs h = (Ok (hs', a), h')).
Proof.
  assert (H : forall A (p p' : script A), sagree p p' -> forall hs' a h', @hexec Checked env A p hs h = (Ok (hs', a), h') -> @hexec Wrapping env A p' hs h = (Ok (hs', a), h')).
  { intros A p p' Hp hs' a h' E. destruct (a_exec2 env p p' Hp hs h) as [H|H]; [by rewrite H|]. by rewrite E in H. }
  split_and!; apply H; [apply sg_slice|apply sg_debug|apply sg_find_char|apply sg_char_at|apply sg_text_eq].
Qed.
Print Assumptions c74_text.
(** hence: whatever the specification says a program shows, it shows in a release build *)
Theorem c74_spec env prog st os : henv_ok env -> s_run prog s_init = SOk (st, os) ->
  exists hs h, @client Wrapping env prog = (Ok (hs, os), h) /\ @client Checked env prog = (Ok (hs, os), h) /\ simulates st hs h.
Proof.
  intros Henv E. pose proof (client_sim env prog Henv) as Hm. rewrite E in Hm. apply wp_ok in Hm as ([hs os']&h&E1&Ex&Hs). simpl in Ex, Hs. subst os'.
  exists hs, h. split_and!; [by apply c74_same|done|done].
Qed.
Print Assumptions c74_spec.

(** the demo program of PropertiesHeap.v with an edit *)
Example c74_nonvacuous :
  (match @client Checked bump_env (demo ++ [OSplice 6 1 2 [4]; OLook 6; ODetach 1; OLook 3]) with (Ok (_, os), _) => Some (drop 14 os) | _ => None end) =
    Some [None; Some (Look true None 10 (0, 5)%N (Node 10 [t_ab; t10])); None; Some (Look true (Some 1) 1 (0, 2)%N t_ab)] /\
  (match @client Wrapping bump_env (demo ++ [OSplice 6 1 2 [4]; OLook 6; ODetach 1; OLook 3]) with (Ok (_, os), _) => Some (drop 14 os) | _ => None end) =
    Some [None; Some (Look true None 10 (0, 5)%N (Node 10 [t_ab; t10])); None; Some (Look true (Some 1) 1 (0, 2)%N t_ab)] /\
  (exists st os, s_run (demo ++ [OSplice 6 1 2 [4]; OLook 6; ODetach 1; OLook 3]) s_init = SOk (st, os)).
Proof. split_and!; [by vm_compute|by vm_compute|]. eexists _, _. by vm_compute. Qed.

(** A call that is refused in a debug build is refused in a release build, with the same
    memory left behind, unless a tree that the call has to make has more than [u32::MAX]
    bytes: immutable trees are not edited, indices beyond the end and ranges outside a node
    are not accepted, mutable trees are not cloned for update. *)
Theorem c74_refused env prog st os o : henv_ok env -> s_run prog s_init = SOk (st, os) -> s_step o st = SPanic -> ~ too_long o st ->
  exists h, @client Checked env (prog ++ [o]) = (Err Panic, h) /\ @client Wrapping env (prog ++ [o]) = (Err Panic, h).
Proof.
  intros Henv E Ho Hl. destruct (c74_spec env prog st os Henv E) as (hs&h&Ew&Ec&Hs).
  pose proof (step_panic env Henv prog st os o E Ho) as Hp. destruct (proj1 (x_step env Henv o st hs h Hs) Ho) as [Hx|Hx]; [|done].
  unfold client in *. rewrite hrun_app_in in Hp |- *. rewrite (hrun_app_in (bld:=Wrapping)).
  unfold mbind, hm_bind in Hp |- *. rewrite Ec in Hp |- *. rewrite Ew. cbn [hrun] in Hp |- *. unfold mbind, hm_bind in Hp |- *. rewrite Hx.
  destruct (@hstep Checked env o hs h) as [[[hs' x]|e] h']; simpl in *; [done|]. injection Hp as ->. by exists h'.
Qed.
Print Assumptions c74_refused.
(** detaching in an immutable tree, a child at index 9 of a node with two, an immutable
    child, a node of an immutable tree, a range that starts before the node, a mutable tree, the
    children of an immutable node, a green child and a range of green children that do not exist *)
Example c74_refused_nonvacuous :
  Forall (fun o => s_step o demo_st = SPanic /\ ~ too_long o demo_st /\ (@client Wrapping bump_env (demo ++ [o])).1 = Err Panic)
    [ODetach 8; OSplice 6 9 9 [4]; OSplice 0 0 0 [8]; OSplice 7 0 0 [4]; OAtRange 0 1 4; OCloneForUpdate 1; ODetachKids true 7;
     ODetachByKind true (fun _ => true) 7; OGreenChild 5 2; OGreenSplice 0 7 [] 4].
Proof.
  repeat (apply Forall_cons; split); [..|by apply Forall_nil]; (split; [by vm_compute|split; [|by vm_compute]]); try (by intros []).
  1-3: intros ([|? [|]]&c&post&st1&x&E&Hs&(hc&st2&h&hc'&m&t&mc&tc&H1&H2&H3&H4&H5&H6&H7)); cbn [app] in E; try discriminate E; injection E as <- <-;
    vm_compute in Hs; try discriminate Hs; injection Hs as <- <-; vm_compute in H1; injection H1 as <-; vm_compute in H2; try discriminate H2; injection H2 as <-; vm_compute in H3; injection H3 as <-;
    vm_compute in H4; injection H4 as <-; vm_compute in H5; injection H5 as <- <-; vm_compute in H6; injection H6 as <- <-; vm_compute in H7; discriminate H7.
  intros (t&ts&H1&H2&H3). vm_compute in H1. simplify_eq. vm_compute in H2. simplify_eq. by vm_compute in H3.
Qed.

(** The one difference: where a debug build panics because a text gets longer than
    [u32::MAX] bytes, a release build goes on with the length modulo 2^32. *)
Theorem c74_overflow env prog st os k els ts : henv_ok env -> s_run prog s_init = SOk (st, os) ->
  mapM (fun g => mjoin (s_greens st !! g)) els = Some ts -> (u32_max < blen (ttext (Node k ts)))%N ->
  (@client Checked env (prog ++ [OGreenNode k els])).1 = Err Panic /\
  exists hs h, @client Wrapping env (prog ++ [OGreenNode k els; OGreenLook (length (s_greens st))]) =
    (Ok (hs, os ++ [None; Some (Look false None k (0%N, (blen (ttext (Node k ts)) mod 2 ^ 32)%N) (Node k ts))]), h).
Proof.
  intros Henv E Hts Hbig. destruct (c74_spec env prog st os Henv E) as (hs&h&Ew&Ec&Hs). split.
  - eapply step_panic; [done|exact E|]. cbn [s_step]. rewrite Hts. unfold panic_unless. destruct (N.leb_spec (blen (ttext (Node k ts))) u32_max); [lia|done].
  - destruct (step_overflow env st hs h k els ts Henv Hs Hts Hbig) as (g&h'&E1&Hl&Hk&Hlen&He).
    assert (Hn : h_greens (hgadd g hs) !! length (s_greens st) = Some (Some g)).
    { destruct Hs as (zs&lk&Hsim). rewrite (sm_greens _ _ _ _ _ _ Hsim), map_length. simpl. by rewrite lookup_app_r, Nat.sub_diag by done. }
    assert (E2 : @hstep Wrapping env (OGreenLook (length (s_greens st))) (hgadd g hs) h' =
      (Ok (hgadd g hs, Some (Look false None k (0%N, (blen (ttext (Node k ts)) mod 2 ^ 32)%N) (Node k ts))), h')).
    { cbn [hstep]. rewrite Hn. unfold mbind, hm_bind, mret, hm_ret. cbn [h_slot]. unfold mret, hm_ret, h_green_read. rewrite Hl, Hlen, He, Hk. done. }
    exists (hgadd g hs), h'. unfold client in *. rewrite hrun_app_in. unfold mbind at 1, hm_bind at 1. rewrite Ew.
    cbn [hrun]. unfold mbind, hm_bind, mret, hm_ret. by rewrite E1, E2.
Qed.
Print Assumptions c74_overflow.

(** so the two builds do not show the same for every program: 32 doublings of a token of one
    byte make a node that a debug build refuses and a release build says is empty *)
Theorem c74_same_refuted : exists prog k n, forall env, henv_ok env ->
  (@client Checked env (prog ++ [OGreenNode k [n; n]])).1 = Err Panic /\
  exists hs os h t, @client Wrapping env (prog ++ [OGreenNode k [n; n]; OGreenLook (S n)]) =
    (Ok (hs, os ++ [Some (Look false None k (0%N, 0%N) t)]), h) /\ blen (ttext t) = (2 ^ 32)%N.
Proof.
  assert (H : forall n, n = 31 -> forall env, henv_ok env ->
    (@client Checked env (doubled n ++ [OGreenNode 0%N [n; n]])).1 = Err Panic /\
    exists hs os h t, @client Wrapping env (doubled n ++ [OGreenNode 0%N [n; n]; OGreenLook (S n)]) =
      (Ok (hs, os ++ [Some (Look false None 0%N (0%N, 0%N) t)]), h) /\ blen (ttext t) = (2 ^ 32)%N).
  { intros n Hn env Henv.
    assert (El : mapM (fun g => mjoin (map (fun i => Some (dtree i)) (seq 0 (S n)) !! g)) [n; n] = Some [dtree n; dtree n]).
    { unfold mapM. rewrite (list_lookup_fmap (fun i => Some (dtree i))), lookup_seq_lt by lia. done. }
    assert (Hlen : blen (ttext (Node 0 [dtree n; dtree n])) = (2 ^ 32)%N).
    { change (Node 0 [dtree n; dtree n]) with (dtree (S n)). rewrite dtree_len. by subst n. }
    destruct (c74_overflow env (doubled n) _ _ 0%N [n; n] [dtree n; dtree n] Henv (doubled_run n ltac:(lia)) El) as [H1 (hs&h&H2)].
    { by rewrite Hlen. }
    split; [exact H1|]. cbn [s_greens] in H2. rewrite map_length, seq_length, Hlen in H2.
    eexists hs, (_ ++ [None]), h, _. split; [|exact Hlen]. rewrite <- app_assoc. exact H2. }
  exists (doubled 31), 0%N, 31. exact (H 31 eq_refl).
Qed.
Print Assumptions c74_same_refuted.
