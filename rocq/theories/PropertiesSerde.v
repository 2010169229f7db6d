(** * Properties of serialisation (C47) *)
From Verif Require Import SerdeFacts PropertiesFmt PropertiesCursor.

(** ** C47 *)
(** A serializer that accepts everything is called so that the tree, and the range of each element,
    can be read back from the calls ([kun] reads the kinds; the [Debug] output of different kinds must
    be different).  A serializer that fails gets a prefix of the same calls, the last being the one
    it failed on, and the failure is reported. *)
Theorem c47_faithful kfr kdbg kun root p c :
  built root -> cursor_at root p = Some c ->
  Forall (fun k => kun (kdbg (kfr k)) = Some k) (tkinds (erase (c_green c))) ->
  exists calls,
    (forall fails, makes fails (serialize fails kfr kdbg c) calls) /\
    read_back kun calls = Some (erase (c_green c),
      map (fun q => default (0, 0)%N (trange (erase root) (p ++ q))) (positions (erase (c_green c)))).
Proof.
  intros Hb%built_wfg Hc Hk. exists (stream kfr kdbg (erase root) p (erase (c_green c))).
  split; [intros fails; by apply makes_element|]. unfold read_back.
  pose proof (unser_stream kfr kdbg kun (erase root) (erase (c_green c)) p [] (length (stream kfr kdbg (erase root) p (erase (c_green c)))) Hk ltac:(done)) as H.
  rewrite app_nil_r in H. by rewrite H.
Qed.
Print Assumptions c47_faithful.
(** in particular different trees are serialised differently *)
Theorem c47_injective kfr kdbg root1 p1 c1 root2 p2 c2 calls :
  (forall k1 k2, kdbg (kfr k1) = kdbg (kfr k2) -> k1 = k2) ->
  built root1 -> built root2 -> cursor_at root1 p1 = Some c1 -> cursor_at root2 p2 = Some c2 ->
  serialize (fun _ _ => false) kfr kdbg c1 [] = Ok (true, calls) ->
  serialize (fun _ _ => false) kfr kdbg c2 [] = Ok (true, calls) ->
  erase (c_green c1) = erase (c_green c2).
Proof.
  intros Hinj Hb1 Hb2 H1 H2 S1 S2.
  set (ks := tkinds (erase (c_green c1)) ++ tkinds (erase (c_green c2))).
  set (kun := fun s => findb (fun k => bool_decide (kdbg (kfr k) = s)) ks).
  assert (forall k, k ∈ ks -> kun (kdbg (kfr k)) = Some k) as Hkun.
  { intros k Hin. unfold kun. destruct (findb _ ks) as [k'|] eqn:E.
    - apply findb_Some in E as [_ E]. apply bool_decide_eq_true in E. f_equal. by apply Hinj.
    - apply (findb_None _ _ E) in Hin. by rewrite bool_decide_eq_false in Hin. }
  destruct (c47_faithful kfr kdbg kun root1 p1 c1 Hb1 H1) as (s1&M1&R1).
  { apply Forall_forall. intros k Hk. apply Hkun, elem_of_app. by left. }
  destruct (c47_faithful kfr kdbg kun root2 p2 c2 Hb2 H2) as (s2&M2&R2).
  { apply Forall_forall. intros k Hk. apply Hkun, elem_of_app. by right. }
  destruct (M1 (fun _ _ => false) []) as (ok1&x1&E1&_&F1&G1&_). destruct (M2 (fun _ _ => false) []) as (ok2&x2&E2&_&F2&G2&_).
  rewrite S1 in E1. rewrite S2 in E2. injection E1 as E1 E1'. injection E2 as E2 E2'.
  rewrite <- E1 in F1. rewrite <- E2 in F2.
  specialize (F1 eq_refl). specialize (F2 eq_refl). simpl in E1', E2'. subst. by injection (eq_trans (eq_sym R1) R2).
Qed.
Print Assumptions c47_injective.
(** example *)
Definition ex_kun (s : str) : option kind := match s with [c] => Some (c - 65)%N | _ => None end.
Example c47_nonvacuous :
  Forall (fun k => ex_kun (ex_kdbg ((fun k => k) k)) = Some k) (tkinds (erase (c_green (ex_c [])))) /\
  serialize (fun _ _ => false) (fun k => k) ex_kdbg (ex_c [0]) [] =
    Ok (true, [SMap (Some 3%nat); SKey k_kind; SDisplay [67]; SKey k_range; STuple 2%nat; SU32 0; SU32 5; STupleEnd;
               SKey k_children; SSeq None;
               SMap (Some 3%nat); SKey k_kind; SDisplay [68]; SKey k_range; STuple 2%nat; SU32 0; SU32 1; STupleEnd;
               SKey k_text; SStr [97]; SMapEnd;
               SMap (Some 3%nat); SKey k_kind; SDisplay [69]; SKey k_range; STuple 2%nat; SU32 1; SU32 5; STupleEnd;
               SKey k_text; SStr [98; 8364]; SMapEnd;
               SSeqEnd; SMapEnd]%N) /\
  serialize (fun log c => match c with SSeq _ => true | _ => false end) (fun k => k) ex_kdbg (ex_c [0]) [] =
    Ok (false, [SMap (Some 3%nat); SKey k_kind; SDisplay [67]; SKey k_range; STuple 2%nat; SU32 0; SU32 5; STupleEnd;
               SKey k_children; SSeq None]%N).
Proof. split; [|by vm_compute]. vm_compute. repeat constructor. Qed.
Example c47_injective_nonvacuous : forall k1 k2, ex_kdbg ((fun k => k) k1) = ex_kdbg ((fun k => k) k2) -> k1 = k2.
Proof. intros k1 k2 [= H]. lia. Qed.
