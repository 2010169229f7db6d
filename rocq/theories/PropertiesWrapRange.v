(** * Properties of searches by range in release builds: C89 *)
From Verif Require Import WrapGreenFacts WrapRange PropertiesHeap HeapClient PropertiesWrapped PropertiesWrapGreen PropertiesWrapHeap.

(** C89.  [child_or_token_at_range] compares ranges, so once a text length has wrapped it may
    answer with another child, with none, or panic.  But it does no harm: whatever it answers is
    a child of the node or nothing, and everything else goes on as if that child had been asked
    for.  [acts] is the program with, for every search, the answer it gave; a look shows what the
    specification says, ranges apart (as in C81).  A program ends or it stops at a call: one with
    a variable that is empty or of the wrong type, one that panics as specified, or a call that
    makes a range. *)
Theorem c89_run env prog : henv_ok env ->
  exists pre post acts st hs os h, prog = pre ++ post /\ Forall2 resolves pre acts /\
    a_run_ acts s_init = SOk (st, map (option_map hide_look) os) /\ xclient Wrapping env pre = (Ok (hs, os), h) /\
    (post = [] \/ exists o rest, post = o :: rest /\
       (ill_call o st \/ (may_panic o st /\ (xclient Wrapping env prog).1 = Err Panic) \/
        (s_step (hide_op o) st = SStuck /\ (xclient Wrapping env prog).1 = Err Diverge))).
Proof.
  intros Henv. destruct (x_client_one env Henv prog) as (pre&post&acts&st&hs&os&h&H1&H2&H3&H4&_&H5). by exists pre, post, acts, st, hs, os, h.
Qed.
Print Assumptions c89_run.

(** A program whose variables are full and of the right type, whatever the searches answer,
    never has undefined behaviour *)
Theorem c89_safe env prog : henv_ok env -> (forall acts, Forall2 resolves prog acts -> a_run_ acts s_init <> SIll) ->
  (xclient Wrapping env prog).1 <> Err UB.
Proof.
  intros Henv Hi. destruct (x_client_one env Henv prog) as (pre&post&acts&st&hs&os&h&->&HF&Ea&Ex&_&[->|(o&rest&->&[Hc|[[_ H]|[_ H]]])]).
  - rewrite app_nil_r. by rewrite Ex.
  - exfalso. destruct (ill_later pre acts s_init st _ o rest HF Ea Hc) as (acts'&H1&H2). by apply (Hi acts').
  - by rewrite H.
  - by rewrite H.
Qed.
Print Assumptions c89_safe.

(** If it comes to an end, it has shown what the specification shows for the answers its searches
    gave, handles are of live nodes, counters are right, and when all variables are empty all
    memory has been given back *)
Theorem c89_right env prog hs os h : henv_ok env -> (forall acts, Forall2 resolves prog acts -> a_run_ acts s_init <> SIll) ->
  xclient Wrapping env prog = (Ok (hs, os), h) ->
  exists acts st, Forall2 resolves prog acts /\ a_run_ acts s_init = SOk (st, map (option_map hide_look) os) /\
    (forall s, h_handles hs !! s = Some None <-> s_handles st !! s = Some None) /\
    (forall s x, h_handles hs !! s = Some (Some x) -> is_Some (hn h !! x)) /\
    (forall x n q, hn h !! x = Some n -> n_par n = Some q -> is_Some (hn h !! q)) /\
    (s_leaked st = [] -> forall x n, hn h !! x = Some n -> n_rc n = holders hs x + length (kids_of h x) /\ 0 < n_rc n) /\
    ((forall o, o ∈ s_handles st -> o = None) -> size (hn h) = length (s_leaked st) /\
       (s_leaked st = [] -> (forall o, o ∈ s_greens st -> o = None) -> ow h = [])).
Proof.
  intros Henv Hi Ec. destruct (x_client_one env Henv prog) as (pre&post&acts&st&hs'&os'&h'&->&HF&Ea&Ex&Hs&[->|(o&rest&->&[Hc|[[_ H]|[_ H]]])]).
  - rewrite app_nil_r in Ec. rewrite Ex in Ec. injection Ec as -> -> ->. exists acts, st. rewrite app_nil_r. split; [done|]. split; [done|].
    split.
    { destruct Hs as (zs&lk&Hsim). intros s. change (h_handles hs) with (h_handles (bhs hs)). rewrite (sm_handles _ _ _ _ _ _ Hsim), (sm_pos _ _ _ _ _ _ Hsim).
      apply slot_empty. }
    destruct (sim_heap_ok st (bhs hs) (bh h) Hs) as (H1&H2&H3).
    assert (Hn : forall x, hn (bh h) !! x = bn <$> hn h !! x) by (intros x; cbn [bh hn]; by rewrite lookup_fmap).
    split_and!.
    + intros s x Hx. destruct (H1 s x Hx) as [n E1]. rewrite Hn in E1. destruct (hn h !! x) as [m|]; [by exists m|done].
    + intros x n q Hx Hq. specialize (H2 x (bn n) q). rewrite !Hn, Hx in H2. destruct (H2 eq_refl Hq) as [m E1]. destruct (hn h !! q) as [m'|]; [by exists m'|done].
    + intros Hl x n Hx. specialize (H3 Hl x (bn n)). rewrite Hn, Hx in H3. destruct (H3 eq_refl) as [E1 E2]. split; [|done].
      assert (Ek : kids_of (bh h) x = kids_of h x).
      { unfold kids_of. cbn [bh hn]. rewrite dom_fmap_L. apply list_filter_iff. intros y. rewrite lookup_fmap. by destruct (hn h !! y). }
      rewrite Ek in E1. exact E1.
    + intros Hh. destruct (sim_end st (bhs hs) (bh h) Hs Hh) as [E1 E2]. split.
      * cbn [bh hn] in E1. by rewrite map_size_fmap in E1.
      * intros Hl Hg. specialize (E2 Hl Hg). cbn [bh ow] in E2. by apply map_eq_nil in E2.
  - exfalso. destruct (ill_later pre acts s_init st _ o rest HF Ea Hc) as (acts'&H1&H2). by apply (Hi acts').
  - rewrite Ec in H. discriminate H.
  - rewrite Ec in H. discriminate H.
Qed.
Print Assumptions c89_right.

(** Where no length has wrapped all this makes no difference: in a debug build, and in a release
    build as long as the specification goes through, a program does what it does with the search
    that cannot panic (so the theorems about [client] hold for [xclient]) *)
Theorem c89_same env prog : henv_ok env -> s_run prog s_init <> SIll ->
  xclient Checked env prog = @client Checked env prog /\
  (forall st os, s_run prog s_init = SOk (st, os) -> xclient Wrapping env prog = @client Wrapping env prog).
Proof.
  intros Henv Hi. split.
  - apply (x_run_same env Henv prog s_init); [apply simulates_init|done].
  - intros st os E. unfold xclient. rewrite (x_run_same_rel env Henv prog s_init h_init (HP ∅ [] 0) st os (simulates_init _) E).
    pose proof (client_sim env prog Henv) as Hm. rewrite E in Hm. apply wp_ok in Hm as ([hs os']&h&E1&_).
    pose proof (a_run env prog h_init (HP ∅ [] 0)) as Ha. unfold client in *. rewrite E1 in *. destruct Ha as [Ha|Ha]; [by rewrite Ha|discriminate Ha].
Qed.
Print Assumptions c89_same.

(** A search that has gone wrong: 2^32 bytes, then three more.  The first child seems to be empty
    and the second one to start at 0, so the first byte of the text is found in the second child.
    And with two halves of 2^31 bytes every search panics *)
Theorem c89_elsewhere : exists g i c, built_rel g /\ child_at_range_x Wrapping (gchildren g) (TR 0 1) = Ok (Some (i, c)) /\
  gchildren g !! i = Some c /\ (1 < blen (concat (map green_display (take i (kids g)))))%N.
Proof.
  assert (H : forall s, blen s = 2147483648%N -> exists g i c, built_rel g /\ child_at_range_x Wrapping (gchildren g) (TR 0 1) = Ok (Some (i, c)) /\
    gchildren g !! i = Some c /\ (1 < blen (concat (map green_display (take i (kids g)))))%N).
  { intros s Hs. set (t := GTok 1 0 s). set (u := GNode 2 0 0 [(0%N, t); (2147483648%N, t)]).
    assert (Hu : green_new Wrapping 2 0 [t; t] = Ok u). { unfold green_new, t. cbn [assign_offsets green_text_len]. rewrite !Hs. reflexivity. }
    set (v := GTok 3 7 [97; 98; 99]%N). set (g := GNode 4 5 3 [(0%N, u); (0%N, v)]).
    assert (Hg : green_new Wrapping 4 5 [u; v] = Ok g) by reflexivity.
    exists g, 1, (0%N, v). split_and!; [|reflexivity|done|].
    - eapply br_node; [|exact Hg]. apply Forall_cons_2; [|apply Forall_cons_2; [apply br_token|apply Forall_nil_2]].
      eapply br_node; [|exact Hu]. apply Forall_cons_2; [apply br_token|]. apply Forall_cons_2; [apply br_token|apply Forall_nil_2].
    - cbn [take kids g gchildren map snd concat]. rewrite app_nil_r. cbn [green_display u map snd t concat]. rewrite !app_nil_r, blen_app, Hs. lia. }
  apply (H (replicate (N.to_nat 2147483648) 97%N)). rewrite blen_replicate, N2Nat.id. reflexivity.
Qed.
Print Assumptions c89_elsewhere.

(** A tree of two halves of 2^31 bytes: no answer of the search makes a later call meet an empty
    variable or one of the wrong type, and the search panics *)
Example c89_nonvacuous : exists prog acts st os, (forall l, Forall2 resolves prog l -> a_run_ l s_init <> SIll) /\
  Forall2 resolves prog acts /\ a_run_ acts s_init = SOk (st, os) /\ s_trees st !! 0 = Some (true, hide (dtree 32)) /\
  forall env, henv_ok env -> (xclient Wrapping env prog).1 = Err Panic.
Proof.
  assert (H : forall n, n = 31 -> exists prog acts st os, (forall l, Forall2 resolves prog l -> a_run_ l s_init <> SIll) /\
    Forall2 resolves prog acts /\ a_run_ acts s_init = SOk (st, os) /\ s_trees st !! 0 = Some (true, hide (dtree (S n))) /\
    forall env, henv_ok env -> (xclient Wrapping env prog).1 = Err Panic).
  { intros n Hn. set (L := map (fun i => Some (hide (dtree i))) (seq 0 (S (S n)))).
    assert (HL : L !! S n = Some (Some (hide (dtree (S n))))). { unfold L. rewrite (list_lookup_fmap (fun i => Some (hide (dtree i)))), lookup_seq_lt by lia. done. }
    set (p0 := doubled (S n) ++ [ORoot true (S n)]). set (st := SS [(true, hide (dtree (S n)))] [Some (0, [])] L []).
    assert (Em : s_run (map hide_op [ORoot true (S n)]) (SS [] [] L []) = SOk (st, [None])).
    { unfold st. clearbody L. clear -HL. cbn [map hide_op s_run s_step s_greens]. rewrite HL. reflexivity. }
    assert (E : s_run (map hide_op p0) s_init = SOk (st, replicate (S (S n)) None ++ [None])).
    { unfold p0. rewrite map_app, s_run_app, hdoubled_run. fold L. cbn [mbind sres_bind]. rewrite Em. done. }
    assert (Hr : Forall no_range p0).
    { apply Forall_app. split; [|by repeat constructor]. constructor; [done|]. apply Forall_map, Forall_true. done. }
    assert (Hlk : forall s, OLook s ∉ p0).
    { intros s [Hs|Hs]%elem_of_app.
      - apply elem_of_cons in Hs as [Hs|Hs]; [done|]. apply elem_of_list_fmap in Hs as (i&Hs&_). done.
      - apply elem_of_list_singleton in Hs. done. }
    assert (Hkid : forall j, exists r, a_run_ [AKid 0 j] st = r /\ r <> SIll /\ (j = None -> exists st' os, r = SOk (st', os) /\ s_trees st' = s_trees st)).
    { intros j. eexists. split; [reflexivity|]. unfold st. clearbody L. clear. cbn [dtree hide map]. generalize (hide (dtree n)). intros t. destruct j as [i|].
      - split; [|done]. cbn [a_run_ a_step_ s_handles lookup list_lookup of_slot mbind sres_bind]. unfold s_elem. cbn. by destruct (i <=? 1).
      - split; [done|]. intros _. by eexists _, _. }
    destruct (Hkid None) as (r&Er&_&Hok). destruct (Hok eq_refl) as (st'&os&->&Etr).
    exists (p0 ++ [OAtRange 0 1 0]), (map AOp p0 ++ [AKid 0 None]), st'. eexists. split_and!.
    - intros l HF. apply Forall2_app_inv_l in HF as (l1&l2&H1&H2&->). rewrite (resolves_ops p0 l1 Hr H1), a_run_ops, E. cbn [mbind sres_bind].
      apply Forall2_cons_inv_l in H2 as (x&l3&[j ->]&H3&->). apply Forall2_nil_inv_l in H3 as ->. destruct (Hkid j) as (r&->&Hni&_). destruct r as [[]| | |]; by cbn.
    - apply Forall2_app; [|repeat constructor; by exists None]. clear -Hr. induction p0 as [|o p IH]; [constructor|]. apply Forall_cons in Hr as [H1 H2]. constructor; [by destruct o|by apply IH].
    - rewrite a_run_ops, E. cbn [mbind sres_bind]. rewrite Er. reflexivity.
    - by rewrite Etr.
    - intros env Henv. destruct (c81_edits env _ st _ Henv Hr Hlk E) as (hs&os'&h&Ec&_).
      pose proof (r_client env Henv p0 Hr ltac:(by rewrite E)) as Hc. rewrite Ec in Hc. destruct Hc as (st1&E1&Hs). rewrite E in E1. injection E1 as <- _.
      destruct (g_client env p0 hs os' h Hr Ec) as [_ HH].
      destruct (x_node 0 st hs h (0, []) true (hide (dtree (S n))) (hide (dtree (S n))) Hs eq_refl eq_refl eq_refl) as (z&nd&o&Hz&Hnd&Ee&Hgr&Ho).
      apply hide_inj in Ee. unfold xclient. rewrite x_run_app, x_run_no_range by done. unfold client in Ec. rewrite Ec. cbn [xrun xstep].
      rewrite Hz. unfold mbind, hm_bind. cbn [h_slot]. unfold mret, hm_ret.
      rewrite (at_range_child Wrapping env z (n_grn nd) (TR 0 1) h h o Ho Hgr); [|destruct (n_grn nd); [done|discriminate Ee]].
      unfold range_sub. destruct (o <=? rstart (TR 0 1))%N; [|done].
      rewrite (halves_panic (n_grn nd) 0 (dtree n) _ (HH _ _ Hnd) (eq_sym Ee)); [done|]. rewrite dtree_len. by subst n. }
  exact (H 31 eq_refl).
Qed.
(** and a program where nothing has wrapped: the search finds the child, in both builds *)
Example c89_same_nonvacuous :
  match s_run (demo ++ [OAtRange 2 3 8; OLook 9]) s_init with SOk (_, os) => last os = Some (Some (Look false (Some 1) 2 (2, 3)%N (Token 2 [99%N]))) | _ => False end /\
  (forall pr, match xclient pr bump_env (demo ++ [OAtRange 2 3 8; OLook 9]) with
              | (Ok (_, os), _) => last os = Some (Some (Look false (Some 1) 2 (2, 3)%N (Token 2 [99%N]))) | _ => False end).
Proof. split; [by vm_compute|]. intros []; by vm_compute. Qed.
