(** * Theorems: clients that catch panics (C68)

    [clientc env prog] runs the calls of [prog] on the node heap and catches every panic; the
    handles that were moved into the call and are still owned by it are dropped by the unwinding.
    [s_runc prog s_init = SOk _] says that every panic in [prog] is one of these: [detach] or
    [splice_children] in an immutable tree, [splice_children] with an element of an immutable
    tree, [clone_for_update] of a mutable one, [child_or_token_at_range] of a range that starts
    before the node, [splice_children] of a green node with a bad range, [unwrap] of a green
    child that does not exist. *)
From Verif Require Import Catch PropertiesHeap PropertiesAstHeap.
Local Open Scope nat_scope.

(** the client ends exactly where it would be had it not made these calls, but dropped their
    arguments instead (for an element of an immutable tree: inserted the elements before it and
    dropped the rest): same variables, same heap *)
Theorem c68_caught env prog st os : henv_ok env -> s_runc prog s_init = SOk (st, os) ->
  exists hs h os', clientc env prog = (Ok (hs, os), h) /\ client env (without_panics prog s_init) = (Ok (hs, os'), h) /\
    s_run (without_panics prog s_init) s_init = SOk (st, os').
Proof.
  intros Henv H. destruct (catch_run env Henv prog s_init h_init (HP ∅ [] 0) st os wf_init (simulates_init 0) H) as (os'&hs&h&A1&A2&A3). by exists hs, h, os'.
Qed.
Print Assumptions c68_caught.
(** one call: every handle that it does not own shows what it showed before *)
Theorem c68_shows env prog st os o l u lk : henv_ok env -> s_run prog s_init = SOk (st, os) -> s_step o st = SPanic ->
  match o with
  | OCloneForUpdate _ | ODetach _ | OAtRange _ _ _ | OGreenChild _ _ => l = []
  | OSplice s _ _ ins => l = ins /\ NoDup ins /\ exists n t p x, holds st s n false t p x
  | OGreenSplice a b _ g => l = [] /\ exists t, s_greens st !! g = Some (Some t) /\ ~ (a <= b /\ b <= length (tchildren t))
  | _ => False
  end ->
  u ∉ l -> full st u -> shows env prog u lk -> exists hs h, clientc env (prog ++ [o; OLook u]) = (Ok (hs, os ++ [None; Some lk]), h).
Proof.
  intros Henv E Ho Hres Hu Hf Hl. destruct (shows_inv env Henv _ _ _ _ _ E Hl Hf) as (n&p&m&t&x&H1&H2&H3&->).
  assert (Hr : residue o st = Some (map ODrop l)).
  { destruct o; try done; try (by subst l).
    - destruct Hres as (->&Hnd&n'&t'&p'&x'&Hs&Ht&_). cbn [residue]. rewrite bool_decide_eq_true_2 by done. unfold imm_handle. rewrite Hs. simpl. by rewrite Ht.
    - destruct Hres as (->&t'&Hg&Hab). cbn [residue]. rewrite Hg. destruct (Nat.leb_spec a b), (Nat.leb_spec b (length (tchildren t'))); try done. exfalso. by apply Hab. }
  assert (Hls : Forall (full st) l /\ NoDup l).
  { destruct o; try done; try (subst l; by repeat constructor).
    - destruct Hres as (->&Hnd&_). split; [|done]. apply (splice_full s a b ins st). by rewrite Ho.
    - destruct Hres as (->&_). by repeat constructor. }
  destruct (run_drops l st) as (xs&Hd); [apply Hls|apply Hls|]. destruct (drops_keep l u st Hu) as [Eh Et].
  set (st1 := foldl (fun st c => del_handle c st) st l) in *.
  assert (E1 : s_stepc o st = SOk (st1, None)) by (unfold s_stepc; by rewrite Ho, Hr, Hd).
  assert (E2 : s_stepc (OLook u) st1 = SOk (st1, Some (look_at m t p x))).
  { unfold s_stepc. cbn [s_step]. rewrite Eh, H1. cbn [of_slot mbind sres_bind]. rewrite <- Et in H2. by rewrite (s_look_at _ _ _ _ _ _ H2 H3). }
  assert (Ec : s_runc (prog ++ [o; OLook u]) s_init = SOk (st1, os ++ [None; Some (look_at m t p x)])).
  { rewrite s_runc_app, (s_runc_ok _ _ _ _ E). cbn [mbind sres_bind s_runc]. rewrite E1. cbn [mbind sres_bind]. by rewrite E2. }
  destruct (c68_caught env _ _ _ Henv Ec) as (hs&h&os'&A1&_). by exists hs, h.
Qed.
Print Assumptions c68_shows.
(** an element of an immutable tree among those to insert: the ones before it are inserted *)
Theorem c68_splice env prog st os s a b pre c post st1 x n t p y : henv_ok env -> s_run prog s_init = SOk (st, os) ->
  NoDup (pre ++ c :: post) -> Forall (full st) post -> holds st c n false t p y ->
  Forall (fun d => exists n' t' p' y', holds st d n' true t' p' y') pre ->
  s_step (OSplice s a b pre) st = SOk (st1, x) ->
  exists hs h os', clientc env (prog ++ [OSplice s a b (pre ++ c :: post)]) = (Ok (hs, os ++ [None]), h) /\
    client env (prog ++ OSplice s a b pre :: map ODrop (c :: post)) = (Ok (hs, os'), h).
Proof.
  intros Henv E Hnd Hpost (Hc&Ht&_) Hpre Hst. destruct (reach env Henv _ _ _ E) as (hs&h&_&Hsim&Hwf).
  assert (Hi : imm_handle st c = true) by (unfold imm_handle; rewrite Hc; simpl; by rewrite Ht).
  pose proof Hnd as Hnd'. apply NoDup_app in Hnd' as (_&Hd&Hnd1). assert (Hcp : c ∉ pre) by (intros Hin; apply (Hd c Hin); left).
  destruct (splice_imm_child_spec env Henv _ _ _ _ _ _ _ _ post _ _ Hwf Hsim Hi Hcp Hpost Hst) as [Ho Hs].
  assert (Esp : split_imm st (pre ++ c :: post) = Some (pre, c :: post)).
  { clear -Hpre Hi. induction Hpre as [|d pre (n'&t'&p'&y'&Hd&Ht'&_) _ IH]; cbn [app split_imm]; [by rewrite Hi|].
    assert (imm_handle st d = false) as -> by (unfold imm_handle; rewrite Hd; simpl; by rewrite Ht'). by rewrite IH. }
  destruct (run_drops (c :: post) st1) as [xs Hdr]; [|done|].
  { apply Forall_forall. intros d Hin. eapply splice_keeps_full; [done|exact Hsim|exact Hst| |by intros Hp; apply (Hd d Hp)].
    apply elem_of_cons in Hin as [->|Hin]; [by eexists|]. rewrite Forall_forall in Hpost. by apply Hpost. }
  set (st2 := foldl _ _ _) in Hdr.
  assert (Er : residue (OSplice s a b (pre ++ c :: post)) st = Some (OSplice s a b pre :: map ODrop (c :: post))).
  { cbn [residue]. rewrite bool_decide_eq_true_2 by done. rewrite Hs, Esp. done. }
  assert (Erun : s_run (OSplice s a b pre :: map ODrop (c :: post)) st = SOk (st2, x :: xs)) by (cbn [s_run]; rewrite Hst; cbn [mbind sres_bind]; by rewrite Hdr).
  assert (E1 : s_stepc (OSplice s a b (pre ++ c :: post)) st = SOk (st2, None)) by (unfold s_stepc; by rewrite Ho, Er, Erun).
  assert (Ec : s_runc (prog ++ [OSplice s a b (pre ++ c :: post)]) s_init = SOk (st2, os ++ [None])).
  { rewrite s_runc_app, (s_runc_ok _ _ _ _ E). cbn [mbind sres_bind s_runc]. by rewrite E1. }
  destruct (c68_caught env _ _ _ Henv Ec) as (hs'&h'&os'&A1&A2&_). exists hs', h', os'. split; [exact A1|].
  rewrite (without_panics_app _ _ _ _ _ E) in A2. cbn [without_panics] in A2. rewrite Ho, Er, E1 in A2. cbn [default from_option] in A2. by rewrite app_nil_r in A2.
Qed.
Print Assumptions c68_splice.
(** all kinds of panic, handles moved into two of them, and edits after *)
Definition daring : list op :=
  demo ++ [OCloneForUpdate 0; ODetach 8; OClone 8; OSplice 7 0 1 [9; 6]; OAtRange 0 1 4; OGreenSplice 3 2 [0] 4; OGreenChild 4 4;
    OLook 8; OSplice 4 0 0 [2; 8; 1]; OLook 7; OCloneSubtree 7; OLook 4].
Example c68_nonvacuous :
  match s_runc daring s_init with
  | SOk (st, os) => without_panics daring s_init = demo ++ [OClone 8; ODrop 9; ODrop 6; OLook 8; OSplice 4 0 0 [2]; ODrop 8; ODrop 1; OLook 7; OCloneSubtree 7; OLook 4] /\
      drop 14 os = [None; None; None; None; None; None; None; Some (look_at false t12 [0] t10); None; Some (look_at false t12 [] t12); None;
        Some (look_at true (Node 12 [t10; t_ab; Node 10 [Node 11 []; t_ab; Token 2 [99]%N]]) [2] (Node 10 [Node 11 []; t_ab; Token 2 [99]%N]))] /\
      match (clientc bump_env daring).1 with Ok (_, os') => os' = os | _ => False end
  | _ => False
  end.
Proof. by vm_compute. Qed.

(** not so for the other panics of [splice_children]: a client that catches one and uses a
    variable that was not even an argument reads freed memory (the program of
    c40_after_panic_refuted, with the unwinding in the model) *)
Theorem c40_catching_refuted : exists prog o u, typed_run (prog ++ [o]) s_init /\ typed_run (prog ++ [OLook u]) s_init /\
  (match o with OSplice s _ _ ins => u <> s /\ u ∉ ins | _ => False end) /\
  (client bump_env (prog ++ [o])).1 = Err Panic /\ (clientc bump_env (prog ++ [o; OLook u])).1 = Err UB.
Proof.
  exists [OGreenNode 1 []; OGreenToken 2 [97]%N; OGreenNode 3 [1]; ORoot true 0; ORoot true 2; OClone 1; OGreenDrop 0; OGreenDrop 1; OGreenDrop 2],
    (OSplice 0 7 7 [2]), 1.
  split; [apply typed_runb_ok; by vm_compute|]. split; [apply typed_runb_ok; by vm_compute|]. split; [|by vm_compute].
  split; [done|]. rewrite elem_of_list_singleton. done.
Qed.
Print Assumptions c40_catching_refuted.
