(** * Theorems: serialisation of any handle a client can hold (C86)

    As in PropertiesShow.v, the handle [s] may be into a tree that has been edited by any
    calls before. *)
From Verif Require Import SerdeHeapFacts PropertiesHeap PropertiesShow PropertiesFmt PropertiesSerde.

(** ** C86 *)
(** For each tree and position there is one list of calls, from which the element and the ranges of
    all that is in it can be read back.  A serializer that accepts everything gets these calls from
    any handle at that position of such a tree, on the heap, however the tree came to look like this;
    one that fails gets the calls up to the one it failed on, and the failure is reported.  The trees
    are as before and no handle is left over.  It is the list of C47. *)
Theorem c86_faithful kfr kdbg kun t p x : tsub t p = Some x ->
  Forall (fun k => kun (kdbg (kfr k)) = Some k) (tkinds x) ->
  exists calls,
    read_back kun calls = Some (x, map (fun q => default (0, 0)%N (trange t (p ++ q))) (positions x)) /\
    (forall env prog st os fails s n m log, henv_ok env -> s_run prog s_init = SOk (st, os) -> holds st s n m t p x ->
       outcome env prog st (p_serialize fails kfr kdbg s log) (fun a F => F = [] /\ exists ok y,
         a = (ok, log ++ y) /\ y `prefix_of` calls /\ (ok = true -> y = calls) /\
         ((forall l c, fails l c = false) -> ok = true) /\
         (ok = false -> exists z c, y = z ++ [c] /\ fails (log ++ z) c = true))) /\
    (forall root c fails, built root -> erase root = t -> cursor_at root p = Some c -> makes fails (serialize fails kfr kdbg c) calls).
Proof.
  intros Hx Hk. exists (stream kfr kdbg t p x). split_and!.
  - unfold read_back.
    pose proof (unser_stream kfr kdbg kun t x p [] (length (stream kfr kdbg t p x)) Hk ltac:(done)) as H.
    rewrite app_nil_r in H. by rewrite H.
  - intros env prog st os fails s n m log Henv E H.
    destruct (sim_root _ Henv _ _ _ E _ _ _ _ _ _ H) as (root&c&Hwf&Hco&->&Hc&->). destruct H as (Hs&Ht&_). apply cin_at in Hc as [Hc <-].
    destruct (makes_element fails kfr kdbg root Hwf (gsize (c_green c)) _ c Hc ltac:(done) log) as (ok&y&Ey&H1&H2&H3&H4).
    eapply (tracked_ok _ Henv _ _ _ E _ _ _ _ _ _ _ _ Hs); [eapply tr_serialize; [exact Ht|done|exact Hc|left]|exact Ey|].
    intros a F [-> ->]. split; [done|]. by exists ok, y.
  - intros root c fails Hb%built_wfg <- Hc. rewrite (cursor_at_tsub _ _ _ Hc) in Hx. injection Hx as <-. by apply makes_element.
Qed.
Print Assumptions c86_faithful.
(** Two handles, in one program or in two, at elements that look different are serialised differently. *)
Theorem c86_injective kfr kdbg env prog1 st1 os1 s1 n1 m1 t1 p1 x1 prog2 st2 os2 s2 n2 m2 t2 p2 x2 calls :
  (forall k1 k2, kdbg (kfr k1) = kdbg (kfr k2) -> k1 = k2) -> henv_ok env ->
  s_run prog1 s_init = SOk (st1, os1) -> holds st1 s1 n1 m1 t1 p1 x1 ->
  s_run prog2 s_init = SOk (st2, os2) -> holds st2 s2 n2 m2 t2 p2 x2 ->
  run_script env prog1 (p_serialize (fun _ _ => false) kfr kdbg s1 []) = Ok (true, calls) ->
  run_script env prog2 (p_serialize (fun _ _ => false) kfr kdbg s2 []) = Ok (true, calls) ->
  x1 = x2 /\ trange t1 p1 = trange t2 p2.
Proof.
  intros Hinj Henv E1 H1 E2 H2 R1 R2.
  set (ks := tkinds x1 ++ tkinds x2).
  set (kun := fun s => findb (fun k => bool_decide (kdbg (kfr k) = s)) ks).
  assert (forall k, k ∈ ks -> kun (kdbg (kfr k)) = Some k) as Hkun.
  { intros k Hin. unfold kun. destruct (findb _ ks) as [k'|] eqn:E.
    - apply findb_Some in E as [_ E]. apply bool_decide_eq_true in E. f_equal. by apply Hinj.
    - apply (findb_None _ _ E) in Hin. by rewrite bool_decide_eq_false in Hin. }
  assert (Hrun : forall prog st os s n m t p x, s_run prog s_init = SOk (st, os) -> holds st s n m t p x -> (forall k, k ∈ tkinds x -> k ∈ ks) ->
    run_script env prog (p_serialize (fun _ _ => false) kfr kdbg s []) = Ok (true, calls) ->
    read_back kun calls = Some (x, map (fun q => default (0, 0)%N (trange t (p ++ q))) (positions x))).
  { clear E1 H1 E2 H2 R1 R2. intros prog st os s n m t p x E H Hin R. pose proof H as (_&_&Hx).
    destruct (c86_faithful kfr kdbg kun t p x Hx) as (cl&Hr&Ho&_). { apply Forall_forall. intros k Hk. by apply Hkun, Hin. }
    destruct (Ho env prog st os (fun _ _ => false) s n m [] Henv E H) as (hs&h&o1&ops&st'&hs'&h'&o2&a&F&C1&C2&_&_&_&_&_&_&_&ok&y&->&_&Hok&Ht&_).
    unfold run_script in R. rewrite C1, C2 in R. simpl in R. injection R as Ro Ry. by rewrite <- Ry, (Hok Ro). }
  pose proof (Hrun _ _ _ _ _ _ _ _ _ E1 H1 ltac:(intros k Hk; apply elem_of_app; by left) R1) as Q1.
  pose proof (Hrun _ _ _ _ _ _ _ _ _ E2 H2 ltac:(intros k Hk; apply elem_of_app; by right) R2) as Q2.
  rewrite Q1 in Q2. injection Q2 as <- Hm. split; [done|]. destruct H1 as (_&_&X1), H2 as (_&_&X2).
  assert (Hd : default (0, 0)%N (trange t1 p1) = default (0, 0)%N (trange t2 p2)).
  { rewrite <- (app_nil_r p1), <- (app_nil_r p2). destruct x1; simpl in Hm; by injection Hm. }
  unfold trange in *. rewrite X1, X2 in *. simpl in Hd. by f_equal.
Qed.
Print Assumptions c86_injective.
(** tree 0 after its first node has been moved to the end of its last: the element at [2] (as in C60) and its token [2; 0] *)
Example c86_nonvacuous : exists st os, s_run moved s_init = SOk (st, os) /\
  holds st 4 0 true (Node 12 [Node 11 []; t_ab; Node 10 [t_ab; Token 2 [99]%N; t10]]) [2] (Node 10 [t_ab; Token 2 [99]%N; t10]) /\
  Forall (fun k => ex_kun (ex_kdbg ((fun k => k) k)) = Some k) (tkinds (Node 10 [t_ab; Token 2 [99]%N; t10])) /\
  run_script bump_env moved (p_serialize (fun _ _ => false) (fun k => k) ex_kdbg 5 []) =
    Ok (true, [SMap (Some 3%nat); SKey k_kind; SDisplay [66]; SKey k_range; STuple 2%nat; SU32 5; SU32 7; STupleEnd; SKey k_text; SStr [97; 98]; SMapEnd]%N) /\
  match run_script bump_env moved (p_serialize (fun _ _ => false) (fun k => k) ex_kdbg 4 []) with
  | Ok (true, calls) => read_back ex_kun calls = Some (Node 10 [t_ab; Token 2 [99]%N; t10], [(2, 8); (2, 4); (4, 5); (5, 8); (5, 7); (7, 8)]%N)
  | _ => False
  end /\
  run_script bump_env moved (p_serialize (fun log c => match c with SStr _ => 20 <? length log | _ => false end) (fun k => k) ex_kdbg 4 []) =
    Ok (false, [SMap (Some 3%nat); SKey k_kind; SDisplay [75]; SKey k_range; STuple 2%nat; SU32 2; SU32 8; STupleEnd; SKey k_children; SSeq None;
      SMap (Some 3%nat); SKey k_kind; SDisplay [66]; SKey k_range; STuple 2%nat; SU32 2; SU32 4; STupleEnd; SKey k_text; SStr [97; 98]; SMapEnd;
      SMap (Some 3%nat); SKey k_kind; SDisplay [67]; SKey k_range; STuple 2%nat; SU32 4; SU32 5; STupleEnd; SKey k_text; SStr [99]]%N).
Proof. do 2 eexists. split; [by vm_compute|]. split; [by vm_compute|]. split; [vm_compute; repeat constructor|]. split_and!; by vm_compute. Qed.
