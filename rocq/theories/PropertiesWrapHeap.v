(** * Properties of ranges of handles on edited trees in release builds: C88 *)
From Verif Require Import WrapHeap PropertiesWrapped.

(** C88.  In a release build the handles on a mutable tree, after any edits, show ranges that are
    the true ones modulo 2^32.  As in C81, [map hide_op prog] is the program with the texts moved
    into the kinds; [hide t] is the tree [t] with its texts moved in the same way, from which [t]
    can be read off (the first theorem). *)
Theorem c88_trees env prog st os hs os' h s n p t' : henv_ok env -> Forall no_range prog ->
  s_run (map hide_op prog) s_init = SOk (st, os') -> @client Wrapping env prog = (Ok (hs, os), h) ->
  s_handles st !! s = Some (Some (n, p)) -> s_trees st !! n = Some (true, t') ->
  exists t, t' = hide t /\ (forall u, t' = hide u -> u = t) /\ is_Some (tsub t p).
Proof.
  intros Henv Hr E Ec Hs Ht. destruct (rel_look_client env prog st os hs os' h s n p t' Henv Hr E Ec Hs Ht) as (t&x&->&Hx&_).
  exists t. split; [done|]. split; [|by rewrite Hx]. intros u Hu. symmetry. by apply hide_inj.
Qed.
Print Assumptions c88_trees.

(** Looking shows the element at the handle's place; the range is the one in the whole text,
    modulo 2^32; nothing changes.  It panics exactly if the end, modulo 2^32, is before the start. *)
Theorem c88_look env prog st os hs os' h s n p t x : henv_ok env -> Forall no_range prog ->
  s_run (map hide_op prog) s_init = SOk (st, os') -> @client Wrapping env prog = (Ok (hs, os), h) ->
  s_handles st !! s = Some (Some (n, p)) -> s_trees st !! n = Some (true, hide t) -> tsub t p = Some x ->
  let a := blen (tbefore t p) in let b := (a + blen (ttext x))%N in
  @hstep Wrapping env (OLook s) hs h =
    (if (m32 a <=? m32 b)%N then Ok (hs, Some (Look true (last p) (tkind x) (m32 a, m32 b) x)) else Err Panic, h).
Proof.
  intros Henv Hr E Ec Hs Ht Hx a b. destruct (rel_look_client env prog st os hs os' h s n p _ Henv Hr E Ec Hs Ht) as (t1&x1&H1&H2&H3).
  apply hide_inj in H1 as <-. rewrite Hx in H2. injection H2 as <-. rewrite H3. unfold rel_look. fold a. fold b. by destruct (m32 a <=? m32 b)%N.
Qed.
Print Assumptions c88_look.

(** In particular the range is right for all that ends within the first 2^32-1 bytes, however
    long the tree is *)
Theorem c88_below env prog st os hs os' h s n p t a b x : henv_ok env -> Forall no_range prog ->
  s_run (map hide_op prog) s_init = SOk (st, os') -> @client Wrapping env prog = (Ok (hs, os), h) ->
  s_handles st !! s = Some (Some (n, p)) -> s_trees st !! n = Some (true, hide t) ->
  tsub t p = Some x -> trange t p = Some (a, b) -> (b <= 4294967295)%N ->
  @hstep Wrapping env (OLook s) hs h = (Ok (hs, Some (Look true (last p) (tkind x) (a, b) x)), h).
Proof.
  intros Henv Hr E Ec Hs Ht Hx Hab Hb. unfold trange in Hab. rewrite Hx in Hab. injection Hab as <- <-.
  rewrite (c88_look env prog st os hs os' h s n p t x Henv Hr E Ec Hs Ht Hx). rewrite !m32_small by lia.
  destruct (N.leb_spec (blen (tbefore t p)) (blen (tbefore t p) + blen (ttext x))); [done|lia].
Qed.
Print Assumptions c88_below.

(** All green elements in variables, and those of all nodes on the heap, have the lengths and
    offsets of C87 *)
Theorem c88_greens env prog hs os h : Forall no_range prog -> @client Wrapping env prog = (Ok (hs, os), h) ->
  (forall i g, h_greens hs !! i = Some (Some g) -> built_rel g) /\ (forall y nd, hn h !! y = Some nd -> built_rel (n_grn nd)).
Proof. apply g_client. Qed.
Print Assumptions c88_greens.

(** A mutable tree of 2^33 bytes: the second half seems to be empty and to start at 0, the second
    quarter has no range, the first quarter has the right one *)
Example c88_nonvacuous : exists prog st os, Forall no_range prog /\ s_run (map hide_op prog) s_init = SOk (st, os) /\
  s_trees st !! 0 = Some (true, hide (dtree 33)) /\
  s_handles st !! 1 = Some (Some (0, [1])) /\ s_handles st !! 3 = Some (Some (0, [0; 1])) /\ s_handles st !! 4 = Some (Some (0, [0; 0])) /\
  forall env, henv_ok env -> exists hs os' h, @client Wrapping env prog = (Ok (hs, os'), h) /\
    @hstep Wrapping env (OLook 1) hs h = (Ok (hs, Some (Look true (Some 1) 0 (0%N, 0%N) (dtree 32))), h) /\
    @hstep Wrapping env (OLook 3) hs h = (Err Panic, h) /\
    @hstep Wrapping env (OLook 4) hs h = (Ok (hs, Some (Look true (Some 0) 0 (0%N, 2147483648%N) (dtree 31))), h).
Proof.
  assert (H : forall n, n = 31 -> exists prog st os, Forall no_range prog /\ s_run (map hide_op prog) s_init = SOk (st, os) /\
    s_trees st !! 0 = Some (true, hide (dtree (S (S n)))) /\
    s_handles st !! 1 = Some (Some (0, [1])) /\ s_handles st !! 3 = Some (Some (0, [0; 1])) /\ s_handles st !! 4 = Some (Some (0, [0; 0])) /\
    forall env, henv_ok env -> exists hs os' h, @client Wrapping env prog = (Ok (hs, os'), h) /\
      @hstep Wrapping env (OLook 1) hs h = (Ok (hs, Some (Look true (Some 1) 0 (0%N, 0%N) (dtree (S n)))), h) /\
      @hstep Wrapping env (OLook 3) hs h = (Err Panic, h) /\
      @hstep Wrapping env (OLook 4) hs h = (Ok (hs, Some (Look true (Some 0) 0 (0%N, 2147483648%N) (dtree n))), h)).
  { intros n Hn.
    set (L := map (fun i => Some (hide (dtree i))) (seq 0 (S (S (S n))))).
    assert (HL : L !! S (S n) = Some (Some (hide (dtree (S (S n)))))). { unfold L. rewrite (list_lookup_fmap (fun i => Some (hide (dtree i)))), lookup_seq_lt by lia. done. }
    set (moves := [ORoot true (S (S n)); ONav NLastChildOrToken 0; ONav NFirstChildOrToken 0; ONav NLastChildOrToken 2; ONav NFirstChildOrToken 2]).
    set (st := SS [(true, hide (dtree (S (S n))))] [Some (0, []); Some (0, [1]); Some (0, [0]); Some (0, [0; 1]); Some (0, [0; 0])] L []).
    assert (Em : s_run (map hide_op moves) (SS [] [] L []) = SOk (st, [None; None; None; None; None])).
    { unfold moves, st. clearbody L. generalize dependent (S (S (S n))). clear -HL. cbn [dtree hide map] in HL |- *. generalize dependent (S (S n)). intros m HL _. cbn. rewrite HL. reflexivity. }
    assert (E : s_run (map hide_op (doubled (S (S n)) ++ moves)) s_init = SOk (st, replicate (S (S (S n))) None ++ [None; None; None; None; None])).
    { rewrite map_app, s_run_app, hdoubled_run. fold L. cbn [mbind sres_bind]. rewrite Em. done. }
    assert (Hr : Forall no_range (doubled (S (S n)) ++ moves)).
    { apply Forall_app. split; [|by repeat constructor]. constructor; [done|]. apply Forall_map, Forall_true. done. }
    assert (Hlk : forall s, OLook s ∉ doubled (S (S n)) ++ moves).
    { intros s [Hs|Hs]%elem_of_app.
      - apply elem_of_cons in Hs as [Hs|Hs]; [done|]. apply elem_of_list_fmap in Hs as (i&Hs&_). done.
      - unfold moves in Hs. repeat (apply elem_of_cons in Hs as [Hs|Hs]; [done|]). by apply elem_of_nil in Hs. }
    exists (doubled (S (S n)) ++ moves), st. eexists. split_and!; [exact Hr|exact E|done|done|done|done|]. intros env Henv.
    destruct (c81_edits env _ st _ Henv Hr Hlk E) as (hs&os'&h&Ec&_). exists hs, os', h. split; [exact Ec|].
    assert (Hl1 : blen (ttext (dtree (S n))) = 4294967296%N) by (rewrite dtree_len; by subst n).
    assert (Hl0 : blen (ttext (dtree n)) = 2147483648%N) by (rewrite dtree_len; by subst n).
    assert (K : forall t, tkind (dtree t) = 0%N) by (by intros []).
    split_and!.
    - rewrite (c88_look env _ st os' hs _ h 1 0 [1] (dtree (S (S n))) (dtree (S n)) Henv Hr E Ec eq_refl eq_refl eq_refl).
      cbn [tbefore dtree tchildren take map concat lookup list_lookup]. change (Node 0 [dtree n; dtree n]) with (dtree (S n)). rewrite !app_nil_r, Hl1, K. reflexivity.
    - rewrite (c88_look env _ st os' hs _ h 3 0 [0; 1] (dtree (S (S n))) (dtree n) Henv Hr E Ec eq_refl eq_refl eq_refl).
      cbn [tbefore dtree tchildren take map concat lookup list_lookup app]. rewrite !app_nil_r, Hl0. reflexivity.
    - rewrite (c88_look env _ st os' hs _ h 4 0 [0; 0] (dtree (S (S n))) (dtree n) Henv Hr E Ec eq_refl eq_refl eq_refl).
      cbn [tbefore dtree tchildren take map concat lookup list_lookup app]. change (blen []) with 0%N. rewrite Hl0, K. reflexivity. }
  exact (H 31 eq_refl).
Qed.
