(** * Properties of release builds after a text length has wrapped: C81 *)
From Verif Require Import Wrapped PropertiesHeap PropertiesRelease.

(** C81.  A release build computes lengths and offsets modulo 2^32 once a tree has more than
    [u32::MAX] bytes.  Everything else stays right.  [map hide_op prog] is the program [prog]
    in which the texts of tokens have been moved into their kinds: its trees have no text, so
    its specification knows nothing about lengths, but still has every kind and every text.
    Calls that search by range are left out: their results depend on lengths. *)

(** A program whose variables are full and of the right type never has undefined behaviour
    in a release build, however long the texts get ... *)
Theorem c81_safe env prog : henv_ok env -> Forall no_range prog -> s_run (map hide_op prog) s_init <> SIll -> (@client Wrapping env prog).1 <> Err UB.
Proof.
  intros Henv Hr Hi. pose proof (r_client env Henv prog Hr Hi) as H.
  destruct (@client Wrapping env prog) as [[[hs os]|[]] h]; [done|done|done|done].
Qed.
Print Assumptions c81_safe.
Theorem c81_safe_typed env prog : henv_ok env -> Forall no_range prog -> typed_run (map hide_op prog) s_init -> (@client Wrapping env prog).1 <> Err UB.
Proof. intros Henv Hr Ht. apply c81_safe; [done|done|]. exact (typed_run_ok _ _ wf_init Ht). Qed.
Print Assumptions c81_safe_typed.
Example c81_safe_nonvacuous : Forall no_range (demo ++ [OSplice 6 1 2 [4]; OLook 6; ODetach 1]) /\ typed_run (map hide_op (demo ++ [OSplice 6 1 2 [4]; OLook 6; ODetach 1])) s_init.
Proof. split; [by repeat constructor|]. apply typed_runb_ok. by vm_compute. Qed.

(** ... everything it shows but ranges and lengths is what the specification says: where an
    element is, its kind, whether it is mutable, and all kinds and texts below it ... *)
Theorem c81_right env prog hs os h : henv_ok env -> Forall no_range prog -> s_run (map hide_op prog) s_init <> SIll ->
  @client Wrapping env prog = (Ok (hs, os), h) ->
  exists st, s_run (map hide_op prog) s_init = SOk (st, map (option_map hide_look) os).
Proof.
  intros Henv Hr Hi E. pose proof (r_client env Henv prog Hr Hi) as H. rewrite E in H. destruct H as (st&H&_). by exists st.
Qed.
Print Assumptions c81_right.
(** ... ([hide_look] forgets nothing but the range) ... *)
Theorem c81_hide_look l l' : hide_look l = hide_look l' ->
  l_mut l = l_mut l' /\ l_index l = l_index l' /\ l_kind l = l_kind l' /\ l_tree l = l_tree l'.
Proof.
  intros H. pose proof (f_equal l_mut H) as H1. pose proof (f_equal l_index H) as H2. pose proof (f_equal l_kind H) as H3. pose proof (f_equal l_tree H) as H4.
  clear H. cbn [hide_look l_mut l_index l_kind l_tree] in *. apply enc_inj in H3 as [H3 _]. apply hide_inj in H4. done.
Qed.
Print Assumptions c81_hide_look.

(** ... it is refused where the specification refuses it, and in addition only by calls of
    [text_range] ... *)
Theorem c81_refused env prog : henv_ok env -> Forall no_range prog -> s_run (map hide_op prog) s_init <> SIll ->
  (s_run (map hide_op prog) s_init = SPanic -> (@client Wrapping env prog).1 = Err Panic) /\
  ((@client Wrapping env prog).1 = Err Panic ->
     s_run (map hide_op prog) s_init = SPanic \/ s_run (map hide_op prog) s_init = SStuck \/
     exists pre s post hs os h, prog = pre ++ OLook s :: post /\ @client Wrapping env pre = (Ok (hs, os), h) /\ (@hstep Wrapping env (OLook s) hs h).1 = Err Panic) /\
  (s_run (map hide_op prog) s_init = SStuck -> (@client Wrapping env prog).1 = Err Panic \/ (@client Wrapping env prog).1 = Err Diverge) /\
  ((@client Wrapping env prog).1 = Err Diverge -> s_run (map hide_op prog) s_init = SStuck).
Proof.
  intros Henv Hr Hi. pose proof (r_client env Henv prog Hr Hi) as H.
  destruct (@client Wrapping env prog) as [[[hs os]|[]] h]; cbn [fst] in *.
  - destruct H as (st&H&_). rewrite H. done.
  - split_and!; [done|by intros _|by left|done].
  - done.
  - rewrite H. split_and!; [done|done|by right|done].
Qed.
Print Assumptions c81_refused.
(** ... so that a program that never asks for a range goes through if the specification of
    the program without texts goes through ... *)
Theorem c81_edits env prog st os : henv_ok env -> Forall no_range prog -> (forall s, OLook s ∉ prog) ->
  s_run (map hide_op prog) s_init = SOk (st, os) ->
  exists hs os' h, @client Wrapping env prog = (Ok (hs, os'), h) /\ os = map (option_map hide_look) os'.
Proof.
  intros Henv Hr Hl E. pose proof (r_client env Henv prog Hr ltac:(by rewrite E)) as H. rewrite E in H.
  destruct (@client Wrapping env prog) as [[[hs os']|[]] h].
  - destruct H as (st'&H&_). injection H as <- ->. by exists hs, os', h.
  - destruct H as [H|[H|(pre&s&post&_&_&_&->&_)]]; [done|done|]. destruct (Hl s). apply elem_of_app. right. left.
  - done.
  - done.
Qed.
Print Assumptions c81_edits.

(** ... counters are right, and when all variables are empty all memory has been given back *)
Theorem c81_memory env prog st hs os os' h : henv_ok env -> Forall no_range prog -> s_run (map hide_op prog) s_init = SOk (st, os') ->
  @client Wrapping env prog = (Ok (hs, os), h) ->
  (forall s x, h_handles hs !! s = Some (Some x) -> is_Some (hn h !! x)) /\
  (forall x n q, hn h !! x = Some n -> n_par n = Some q -> is_Some (hn h !! q)) /\
  (s_leaked st = [] -> forall x n, hn h !! x = Some n -> n_rc n = holders hs x + length (kids_of h x) /\ 0 < n_rc n) /\
  ((forall o, o ∈ s_handles st -> o = None) -> size (hn h) = length (s_leaked st) /\
     (s_leaked st = [] -> (forall o, o ∈ s_greens st -> o = None) -> ow h = [])).
Proof.
  intros Henv Hr E Ec. pose proof (r_client env Henv prog Hr ltac:(by rewrite E)) as H. rewrite Ec in H. destruct H as (st'&H&Hs).
  rewrite E in H. injection H as <- ->. destruct (sim_heap_ok st (bhs hs) (bh h) Hs) as (H1&H2&H3).
  assert (Hn : forall x, hn (bh h) !! x = bn <$> hn h !! x) by (intros x; cbn [bh hn]; by rewrite lookup_fmap).
  split_and!.
  - intros s x Hx. destruct (H1 s x Hx) as [n E1]. rewrite Hn in E1. destruct (hn h !! x) as [m|]; [by exists m|done].
  - intros x n q Hx Hq. specialize (H2 x (bn n) q). rewrite !Hn, Hx in H2. destruct (H2 eq_refl Hq) as [m E1]. destruct (hn h !! q) as [m'|]; [by exists m'|done].
  - intros Hl x n Hx. specialize (H3 Hl x (bn n)). rewrite Hn, Hx in H3. destruct (H3 eq_refl) as [E1 E2]. split; [|done].
    assert (Ek : kids_of (bh h) x = kids_of h x).
    { unfold kids_of. cbn [bh hn]. rewrite dom_fmap_L. apply list_filter_iff. intros y. rewrite lookup_fmap. by destruct (hn h !! y). }
    rewrite Ek in E1. exact E1.
  - intros Hh. destruct (sim_end st (bhs hs) (bh h) Hs Hh) as [E1 E2]. split.
    + cbn [bh hn] in E1. by rewrite map_size_fmap in E1.
    + intros Hl Hg. specialize (E2 Hl Hg). cbn [bh ow] in E2. by apply map_eq_nil in E2.
Qed.
Print Assumptions c81_memory.

(** A tree of 2^32 bytes is made and its first half is detached: a debug build panics, a
    release build ends up with the other half *)
Example c81_nonvacuous : exists prog st os, Forall no_range prog /\ (forall s, OLook s ∉ prog) /\
  s_run (map hide_op prog) s_init = SOk (st, os) /\ forall env, henv_ok env -> (@client Checked env prog).1 = Err Panic /\
  exists hs os' h l, @client Wrapping env prog = (Ok (hs, os'), h) /\ last os' = Some (Some l) /\ l_kind l = 0%N /\ l_tree l = Node 0 [dtree 31].
Proof.
  assert (H : forall n, n = 31 -> exists prog st os, Forall no_range prog /\ (forall s, OLook s ∉ prog) /\
    s_run (map hide_op prog) s_init = SOk (st, os) /\ forall env, henv_ok env -> (@client Checked env prog).1 = Err Panic /\
    exists hs os' h l, @client Wrapping env prog = (Ok (hs, os'), h) /\ last os' = Some (Some l) /\ l_kind l = 0%N /\ l_tree l = Node 0 [dtree n]).
  { intros n Hn.
    set (L := map (fun i => Some (hide (dtree i))) (seq 0 (S (S n)))).
    assert (HL : L !! S n = Some (Some (hide (dtree (S n))))). { unfold L. rewrite (list_lookup_fmap (fun i => Some (hide (dtree i)))), lookup_seq_lt by lia. done. }
    assert (Hl : length L = S (S n)) by (unfold L; by rewrite map_length, seq_length).
    destruct (edits_run L (S n) (enc 0 None) (hide (dtree n)) Hl HL) as (st&Est).
    assert (E : s_run (map hide_op (doubled (S n) ++ edits (S n))) s_init =
      SOk (st, replicate (S (S n)) None ++ [None; None; None; None; Some (Look false None (enc 0 None) (0%N, blen (ttext (Node (enc 0 None) [hide (dtree n)]))) (Node (enc 0 None) [hide (dtree n)]))])).
    { rewrite map_app, s_run_app, hdoubled_run. fold L. cbn [mbind sres_bind]. change (map hide_op (edits (S n))) with (edits (S n)). rewrite Est. done. }
    assert (Hr : Forall no_range (doubled (S n) ++ edits (S n))).
    { apply Forall_app. split; [|by repeat constructor]. constructor; [done|]. apply Forall_map, Forall_true. done. }
    assert (Hlk : forall s, OLook s ∉ doubled (S n) ++ edits (S n)).
    { intros s [Hs|Hs]%elem_of_app.
      - apply elem_of_cons in Hs as [Hs|Hs]; [done|]. apply elem_of_list_fmap in Hs as (i&Hs&_). done.
      - unfold edits in Hs. repeat (apply elem_of_cons in Hs as [Hs|Hs]; [done|]). by apply elem_of_nil in Hs. }
    exists (doubled (S n) ++ edits (S n)), st. eexists. split_and!; [exact Hr|exact Hlk|exact E|]. intros env Henv. split.
    - assert (Ep : s_run (doubled (S n) ++ edits (S n)) s_init = SPanic).
      { unfold doubled. rewrite seq_S, map_app, app_comm_cons. fold (doubled n). rewrite <- app_assoc, s_run_app, doubled_run by lia.
        cbn [mbind sres_bind map app s_run s_step Nat.add s_greens].
        assert (El : mapM (fun g => mjoin (map (fun i => Some (dtree i)) (seq 0 (S n)) !! g)) [n; n] = Some [dtree n; dtree n]).
        { unfold mapM. rewrite (list_lookup_fmap (fun i => Some (dtree i))), lookup_seq_lt by lia. done. }
        rewrite El. change (Node 0 [dtree n; dtree n]) with (dtree (S n)). rewrite dtree_len. unfold panic_unless. by rewrite Hn. }
      pose proof (c40_refines env (doubled (S n) ++ edits (S n)) Henv) as Hc. rewrite Ep in Hc. exact Hc.
    - destruct (c81_edits env _ st _ Henv Hr Hlk E) as (hs&os'&h&Ec&Eo). exists hs, os', h.
      apply (f_equal last) in Eo. rewrite last_app in Eo. cbn [last] in Eo. rewrite (fmap_last (option_map hide_look)) in Eo.
      change (@last (option look) os') with (@last obs os') in Eo.
      destruct (last os') as [[l|]|]; cbn [fmap option_fmap option_map] in Eo; [|discriminate Eo|discriminate Eo]. exists l.
      assert (Eh : hide_look (Look false None 0%N (0%N, 0%N) (Node 0 [dtree n])) = hide_look l).
      { assert (Eo' : forall a b : look, Some (Some a) = Some (Some b) -> a = b) by congruence. apply Eo' in Eo. rewrite <- Eo. unfold hide_look. cbn [l_mut l_index l_kind l_tree hide map]. f_equal. f_equal.
        rewrite (proj2 (mute_kids _ _)); [done|]. repeat constructor. apply mute_dtree. }
      destruct (c81_hide_look _ _ Eh) as (_&_&E3&E4).
      split_and!; [exact Ec|done|by rewrite <- E3|by rewrite <- E4]. }
  exact (H 31 eq_refl).
Qed.
