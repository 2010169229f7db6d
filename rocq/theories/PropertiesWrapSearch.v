(** * Properties of ranges and searches in release builds, in programs with searches: C90 *)
From Verif Require Import WrapSearch PropertiesWrapped PropertiesWrapHeap.

(** C90.  C88 for programs that search by range, and what such a search finds.  After a program
    that stays well typed whatever its searches answer, in a release build and however long the
    texts get, there are answers of the searches such that ... *)
Theorem c90_exact env prog hs os h : henv_ok env -> (forall acts, Forall2 resolves prog acts -> a_run_ acts s_init <> SIll) ->
  xclient Wrapping env prog = (Ok (hs, os), h) ->
  exists acts st, Forall2 resolves prog acts /\ a_run_ acts s_init = SOk (st, map (option_map hide_look) os) /\
    (* ... each handle on a mutable tree is at some place of a tree [t] ... *)
    (forall s n p t', s_handles st !! s = Some (Some (n, p)) -> s_trees st !! n = Some (true, t') ->
       exists t, t' = hide t /\ is_Some (tsub t p)) /\
    (* ... looking there shows the element and its range modulo 2^32 ... *)
    (forall s n p t x, s_handles st !! s = Some (Some (n, p)) -> s_trees st !! n = Some (true, hide t) -> tsub t p = Some x ->
       let a := blen (tbefore t p) in let b := (a + blen (ttext x))%N in
       @hstep Wrapping env (OLook s) hs h =
         (if (m32 a <=? m32 b)%N then Ok (hs, Some (Look true (last p) (tkind x) (m32 a, m32 b) x)) else Err Panic, h)) /\
    (* ... and if it is a node of at most [u32::MAX] bytes, a range counted from where the node says it starts
       is found in the right child, or in none, and a range that starts before is refused *)
    (forall s n p t k cs a b, s_handles st !! s = Some (Some (n, p)) -> s_trees st !! n = Some (true, hide t) -> tsub t p = Some (Node k cs) ->
       (blen (ttext (Node k cs)) <= 4294967295)%N -> (a <= b)%N ->
       let o := m32 (blen (tbefore t p)) in
       if (o <=? a)%N then
         exists y h', xstep Wrapping env (OAtRange a b s) hs h = (Ok (hadd y hs, None), h') /\
           match at_range cs (a - o) (b - o), y with
           | Some i, Some _ => exists u, cs !! i = Some u /\ @hstep Wrapping env (OLook (length (h_handles hs))) (hadd y hs) h' = (l ← rel_look t (p ++ [i]) u; Ok (hadd y hs, Some l), h')
           | None, None => True
           | _, _ => False
           end
       else xstep Wrapping env (OAtRange a b s) hs h = (Err Panic, h)).
Proof.
  intros Henv Hi Ec. destruct (x_client_end env prog hs os h Henv Hi Ec) as (acts&st&HF&Ea&Hs&Hm&Hg). exists acts, st. split; [done|]. split; [done|]. split_and!.
  - intros s n p t' H1 H2. destruct (rel_look_sim env st hs h s n p t' Hs Hm Hg H1 H2) as (t&x&->&Hx&_). exists t. split; [done|]. by rewrite Hx.
  - intros s n p t x H1 H2 Hx a b. destruct (rel_look_sim env st hs h s n p _ Hs Hm Hg H1 H2) as (t1&x1&E1&Hx1&E). apply hide_inj in E1 as <-. rewrite Hx in Hx1. injection Hx1 as <-.
    rewrite E. unfold rel_look. fold a. fold b. by destruct (m32 a <=? m32 b)%N.
  - intros s n p t k cs a b H1 H2 Hx Hb Hab o. pose proof (search_exact env Henv st hs h s n p t k cs a b Hs Hg H1 H2 Hx Hb Hab) as H. cbv zeta in H. fold o in H.
    destruct (o <=? a)%N; [|exact H]. destruct H as (y&h'&E&Hs'). exists y, h'. split; [exact E|].
    assert (Hg' : HG h').
    { apply (g_xclient env (prog ++ [OAtRange a b s]) (hadd y hs) (os ++ [None]) h'). unfold xclient in *. rewrite x_run_app, Ec. cbn [xrun]. unfold mbind, hm_bind. rewrite E. done. }
    assert (Hl : length (h_handles hs) = length (s_handles st)).
    { destruct Hs as (zs&lk&Hsim). change (h_handles hs) with (h_handles (bhs hs)). by rewrite (sm_handles _ _ _ _ _ _ Hsim), (sm_pos _ _ _ _ _ _ Hsim), !map_length. }
    pose proof Hs' as (zs&lk&Hsim). pose proof (sm_handles _ _ _ _ _ _ Hsim) as Hh. pose proof (sm_pos _ _ _ _ _ _ Hsim) as Hp.
    assert (Hlast : (y = None <-> at_range cs (a - o) (b - o) = None)).
    { pose proof (slot_empty fst snd zs (length (h_handles hs))) as He. rewrite <- Hh, <- Hp in He. cbn [bhs hadd add_handle h_handles s_handles] in He.
      assert (E1 : forall w : option id, (h_handles hs ++ [w]) !! length (h_handles hs) = Some w) by (intros w; rewrite lookup_app_r by lia; by rewrite Nat.sub_diag).
      assert (E2 : forall w : option (nat * pos), (s_handles st ++ [w]) !! length (h_handles hs) = Some w) by (intros w; rewrite Hl, lookup_app_r by lia; by rewrite Nat.sub_diag).
      rewrite E1, E2 in He.
      destruct (at_range cs (a - o) (b - o)) as [i|]; cbn [fmap option_fmap option_map] in He; split; intros Hq; try done.
      - subst y. by discriminate (proj1 He eq_refl).
      - by injection (proj2 He eq_refl). }
    destruct (at_range cs (a - o) (b - o)) as [i|] eqn:Eat; [|by rewrite (proj2 Hlast eq_refl)].
    destruct y as [y|]; [|discriminate (proj1 Hlast eq_refl)].
    cbn [fmap option_fmap option_map] in Hs'.
    assert (Hm' : mute (add_handle (Some (n, p ++ [i])) st)) by (destruct Hm; by split).
    destruct (rel_look_sim env (add_handle (Some (n, p ++ [i])) st) (hadd (Some y) hs) h' (length (h_handles hs)) n (p ++ [i]) (hide t) Hs' Hm' Hg') as (t1&u&E1&Hu&E2); [|done|].
    { cbn [add_handle s_handles]. rewrite Hl, lookup_app_r by lia. by rewrite Nat.sub_diag. }
    apply hide_inj in E1 as <-. exists u. split; [|exact E2]. rewrite tsub_app, Hx in Hu. cbn in Hu. by destruct (cs !! i).
Qed.
Print Assumptions c90_exact.

(** 2^32 bytes and then a node of five: it says that it starts at 0, and in it 3..4 is found in its second child *)
Example c90_nonvacuous : exists prog, (forall acts, Forall2 resolves prog acts -> a_run_ acts s_init <> SIll) /\
  forall env, henv_ok env -> exists hs os h y h', xclient Wrapping env prog = (Ok (hs, os), h) /\
    xstep Wrapping env (OAtRange 3 4 1) hs h = (Ok (hadd (Some y) hs, None), h') /\
    @hstep Wrapping env (OLook (length (h_handles hs))) (hadd (Some y) hs) h' = (Ok (hadd (Some y) hs, Some (Look true (Some 1) 8 (3, 5)%N (Token 8 [100; 101]%N))), h').
Proof.
  assert (H : forall n, n = 31 -> exists prog, (forall acts, Forall2 resolves prog acts -> a_run_ acts s_init <> SIll) /\
    forall env, henv_ok env -> exists hs os h y h', xclient Wrapping env prog = (Ok (hs, os), h) /\
      xstep Wrapping env (OAtRange 3 4 1) hs h = (Ok (hadd (Some y) hs, None), h') /\
      @hstep Wrapping env (OLook (length (h_handles hs))) (hadd (Some y) hs) h' = (Ok (hadd (Some y) hs, Some (Look true (Some 1) 8 (3, 5)%N (Token 8 [100; 101]%N))), h')).
  { intros n Hn. set (L := map (fun i => Some (hide (dtree i))) (seq 0 (S (S n)))).
    assert (HL : L !! S n = Some (Some (hide (dtree (S n))))). { unfold L. rewrite (list_lookup_fmap (fun i => Some (hide (dtree i)))), lookup_seq_lt by lia. done. }
    assert (Hlen : length L = S (S n)) by (unfold L; by rewrite map_length, seq_length).
    set (small := Node 6 [Token 7 [97; 98; 99]%N; Token 8 [100; 101]%N]).
    set (t := Node 5 [dtree (S n); small]).
    set (more := [OGreenToken 7 [97; 98; 99]%N; OGreenToken 8 [100; 101]%N; OGreenNode 6 [S (S n); S (S (S n))]; OGreenNode 5 [S n; S (S (S (S n)))]; ORoot true (S (S (S (S (S n))))); ONav NLastChildOrToken 0]).
    set (p0 := doubled (S n) ++ more).
    assert (Em : exists st os, s_run (map hide_op more) (SS [] [] L []) = SOk (st, os) /\ s_handles st = [Some (0, []); Some (0, [1])] /\ s_trees st = [(true, hide t)]).
    { unfold more, t. set (d := dtree (S n)) in *. assert (Hd : ttext (hide d) = []) by apply mute_dtree. clearbody d L. clear p0 t more Hn.
      set (a := hide (Token 7 [97; 98; 99]%N)). set (b := hide (Token 8 [100; 101]%N)). assert (Ha : ttext a = []) by done. assert (Hb : ttext b = []) by done.
      assert (T : forall k l, s_step (OGreenToken k []) (SS [] [] l []) = SOk (SS [] [] (l ++ [Some (Token k [])]) [], None)) by done.
      assert (P : forall k i j x y l, l !! i = Some (Some x) -> l !! j = Some (Some y) -> ttext x = [] -> ttext y = [] ->
        s_step (OGreenNode k [i; j]) (SS [] [] l []) = SOk (SS [] [] (l ++ [Some (Node k [x; y])]) [], None)).
      { intros k i j x y l Hi Hj Hx Hy. cbn [s_step s_greens]. unfold mapM. rewrite Hi, Hj. 
        assert (E : ttext (Node k [x; y]) = []) by (rewrite ttext_node; unfold ctext; cbn [map concat]; by rewrite Hx, Hy).
        change (mjoin _ ≫= _) with (Some [x; y]). cbv iota. by rewrite E. }
      assert (R : forall i x k l, l !! i = Some (Some (Node (enc k None) [x; hide small])) ->
        exists st os, s_run [ORoot true i; ONav (hide_nav NLastChildOrToken) 0] (SS [] [] l []) = SOk (st, os) /\ s_handles st = [Some (0, []); Some (0, [1])] /\ s_trees st = [(true, Node (enc k None) [x; hide small])]).
      { generalize (hide small). intros y i x k l Hi. generalize (enc k None) Hi. clear. intros e Hi. cbn [s_run s_step s_greens]. rewrite Hi. cbn. eexists _, _. split_and!; reflexivity. }
      assert (G : forall i j x, j = S (S n) + i -> (L ++ x) !! j = x !! i) by (intros i j x ->; rewrite lookup_app_r by lia; f_equal; lia).
      cbn [map hide_op]. cbn [s_run]. change (rest [97; 98; 99]%N) with (@nil N). change (rest [100; 101]%N) with (@nil N).
      rewrite T. cbn [mbind sres_bind]. rewrite T. cbn [mbind sres_bind]. rewrite <- app_assoc. cbn [app].
      rewrite (P _ _ _ a b); [|by rewrite (G 0) by lia|by rewrite (G 1) by lia|done|done]. cbn [mbind sres_bind]. rewrite <- app_assoc. cbn [app].
      rewrite (P _ _ _ (hide d) (hide small)); [|by apply lookup_app_l_Some|by rewrite (G 2) by lia|done|done]. cbn [mbind sres_bind]. rewrite <- app_assoc. cbn [app].
      match goal with |- context [SS [] [] ?l []] => destruct (R (S (S (S (S (S n))))) (hide d) 5%N l ltac:(by rewrite (G 3) by lia)) as (st&os&E&Hh&Ht) end.
      cbn [s_run mbind sres_bind] in E. rewrite E. cbn [mbind sres_bind]. by eexists _, _. }
    destruct Em as (st&os0&Em&Hh&Ht).
    assert (E : s_run (map hide_op p0) s_init = SOk (st, replicate (S (S n)) None ++ os0)).
    { unfold p0. rewrite map_app, s_run_app, hdoubled_run. fold L. cbn [mbind sres_bind]. rewrite Em. done. }
    assert (Hr : Forall no_range p0).
    { apply Forall_app. split; [|by repeat constructor]. constructor; [done|]. apply Forall_map, Forall_true. done. }
    assert (Hlk : forall s, OLook s ∉ p0).
    { intros s [Hs|Hs]%elem_of_app.
      - apply elem_of_cons in Hs as [Hs|Hs]; [done|]. apply elem_of_list_fmap in Hs as (i&Hs&_). done.
      - unfold more in Hs. repeat (apply elem_of_cons in Hs as [Hs|Hs]; [done|]). by apply elem_of_nil in Hs. }
    assert (Hill : forall acts, Forall2 resolves p0 acts -> a_run_ acts s_init <> SIll).
    { intros l HF. rewrite (resolves_ops p0 l Hr HF), <- (app_nil_r (map AOp p0)), a_run_ops, E. done. }
    exists p0. split; [exact Hill|]. intros env Henv. destruct (c81_edits env _ st _ Henv Hr Hlk E) as (hs&os'&h&Ec&_).
    assert (Ec' : xclient Wrapping env p0 = (Ok (hs, os'), h)) by (unfold xclient; rewrite x_run_no_range by done; exact Ec).
    destruct (c90_exact env p0 hs os' h Henv Hill Ec') as (acts&st'&HF&Ea&_&_&H3).
    rewrite (resolves_ops p0 acts Hr HF), <- (app_nil_r (map AOp p0)), a_run_ops, E in Ea. cbn [mbind sres_bind a_run_] in Ea. injection Ea as <- _.
    assert (Hb : m32 (blen (tbefore t [1])) = 0%N).
    { unfold t. cbn [tbefore tchildren take map concat lookup list_lookup]. rewrite !app_nil_r, dtree_len. by subst n. }
    specialize (H3 1 0 [1] t 6%N [Token 7 [97; 98; 99]%N; Token 8 [100; 101]%N] 3%N 4%N ltac:(by rewrite Hh) ltac:(by rewrite Ht) eq_refl ltac:(by vm_compute) ltac:(lia)).
    cbv zeta in H3. rewrite Hb in H3. change (0 <=? 3)%N with true in H3. cbv iota in H3. destruct H3 as (y&h'&E1&E2).
    change (at_range _ (3 - 0) (4 - 0)) with (Some 1) in E2. cbv iota in E2. destruct y as [y|]; [|done]. destruct E2 as (u&[= <-]&E2).
    exists hs, os', h, y, h'. split_and!; [exact Ec'|exact E1|].
    rewrite E2. unfold rel_look.
    assert (Hc : blen (tbefore t ([1] ++ [1])) = 4294967299%N).
    { unfold t. cbn [app tbefore tchildren take map concat lookup list_lookup small ttext]. rewrite !app_nil_r, blen_app, dtree_len. by subst n. }
    rewrite Hc. reflexivity. }
  exact (H 31 eq_refl).
Qed.
