(** * Facts about formatting *)
From Verif Require Export Fmt.

(** ** Decimal numbers *)
Lemma undec_snoc l d : undec (l ++ [d]) = (undec l * 10 + (d - 48))%N.
Proof. unfold undec. by rewrite fold_left_app. Qed.
Lemma dec_f_enough fuel n : (n < 2 ^ N.of_nat fuel)%N ->
  undec (dec_f (S fuel) n) = n /\ is_decimal (dec_f (S fuel) n) /\ (n <> 0 -> dec_f (S fuel) n <> [48])%N.
Proof.
  revert n. induction fuel as [|fuel IH]; intros n Hn.
  - change (2 ^ N.of_nat 0)%N with 1%N in Hn. assert (n = 0%N) as -> by lia.
    simpl. split; [done|]. split; [|done]. split; [|by left]. repeat constructor; lia.
  - change (dec_f (S (S fuel)) n) with (if (n <? 10)%N then [48 + n]%N else dec_f (S fuel) (n / 10) ++ [48 + n mod 10]%N).
    destruct (N.ltb_spec n 10) as [Hlt|Hge].
    + unfold undec. simpl. split; [lia|]. split; [|intros H0 [= He]; lia]. split; [repeat constructor; lia|].
      destruct (decide (n = 0%N)) as [->|]; [by left|]. right. exists (48 + n)%N, []. split; [done|lia].
    + assert (0 < n / 10)%N as Hpos by (apply N.div_str_pos; lia).
      assert (n / 10 < 2 ^ N.of_nat fuel)%N as Hlt.
      { rewrite Nat2N.inj_succ, N.pow_succ_r' in Hn. apply N.div_lt_upper_bound; lia. }
      destruct (IH _ Hlt) as (H1&[H2 H3]&H4).
      assert (n mod 10 < 10)%N by (apply N.mod_upper_bound; lia).
      split; [|split].
      * rewrite undec_snoc, H1. pose proof (N.div_mod' n 10). lia.
      * split; [apply Forall_app; split; [done|]; repeat constructor; lia|].
        right. destruct H3 as [H3|(d&l'&H3&Hd)].
        -- exfalso. apply H4; [lia|done].
        -- rewrite H3. exists d, (l' ++ [48 + n mod 10]%N). done.
      * intros _ He. destruct (dec_f (S fuel) (n / 10)) as [|d [|]] eqn:E; [|done|done].
        destruct H3 as [[=]|(?&?&[=]&_)].
Qed.
Lemma dec_ok n : undec (dec n) = n /\ is_decimal (dec n).
Proof.
  destruct (dec_f_enough (N.to_nat (N.size n)) n) as (H1&H2&_); [|by split].
  rewrite N2Nat.id. apply N.size_gt.
Qed.

(** ** Cutting long texts *)
Lemma cut_after_prefix n s : exists r, s = cut_after n s ++ r.
Proof.
  revert n. induction s as [|c s IH]; intros n; simpl; destruct (n =? 0)%N; eauto.
  destruct (IH (n - width c)%N) as [r Hr]. exists r. simpl. by f_equal.
Qed.
Lemma cut_after_blen n s : (n <= blen s -> n <= blen (cut_after n s) < n + 4)%N.
Proof.
  revert n. induction s as [|c s IH]; intros n; simpl; intros H.
  - destruct (N.eqb_spec n 0); simpl; lia.
  - destruct (N.eqb_spec n 0) as [->|]; simpl; [lia|].
    pose proof (width_le4 c). pose proof (width_pos c). destruct (N.le_gt_cases n (width c)) as [Hle|Hgt].
    + replace (n - width c)%N with 0%N by lia. assert (cut_after 0 s = []) as -> by (by destruct s). simpl. lia.
    + specialize (IH (n - width c)%N). lia.
Qed.
Lemma cut_after_least n s a b : s = a ++ b -> (n <= blen a -> blen (cut_after n s) <= blen a)%N.
Proof.
  revert n a. induction s as [|c s IH]; intros n a; simpl; destruct (N.eqb_spec n 0); simpl; try lia.
  destruct a as [|d a]; simpl; [lia|]. intros [= <- ->] H. specialize (IH (n - width c)%N a eq_refl). lia.
Qed.
Lemma is_char_boundary_true s n : is_char_boundary s n = true <-> exists a b, s = a ++ b /\ blen a = n.
Proof.
  unfold is_char_boundary. destruct (split_bytes s n) as [[a b]|] eqn:E.
  - apply split_bytes_Some in E. split; [|done]. intros _. exists a, b. naive_solver.
  - split; [done|]. intros (a&b&->&<-). by rewrite split_bytes_app in E.
Qed.
Lemma cut_at_ok s : (25 <= blen s)%N -> cut_at s [21; 22; 23; 24]%N = Ok (cut_after 21 s ++ s_more).
Proof.
  intros H. destruct (cut_after_prefix 21 s) as [r Hr]. pose proof (cut_after_blen 21 s ltac:(lia)) as [H1 H2].
  assert (forall n, (21 <= n)%N -> (n < blen (cut_after 21 s))%N -> is_char_boundary s n = false) as Hno.
  { intros n Hn Hlt. destruct (is_char_boundary s n) eqn:E; [|done].
    apply is_char_boundary_true in E as (a&b&Hs&<-). pose proof (cut_after_least 21 s a b Hs). lia. }
  assert (is_char_boundary s (blen (cut_after 21 s)) = true) as Hyes by (apply is_char_boundary_true; eauto).
  assert (str_slice s 0 (blen (cut_after 21 s)) = Ok (cut_after 21 s)) as Hsl by (apply str_slice_Ok; exists [], r; done).
  unfold cut_at.
  assert (blen (cut_after 21 s) = 21 \/ blen (cut_after 21 s) = 22 \/ blen (cut_after 21 s) = 23 \/ blen (cut_after 21 s) = 24)%N
    as [E|[E|[E|E]]] by lia; rewrite E in Hyes, Hsl; repeat (rewrite Hno by lia); rewrite Hyes, Hsl; done.
Qed.

(** ** Writing *)
Section writes.
Context (sink : str -> str -> option nat).
Lemma writes_wstr s : writes sink (wstr sink s) s.
Proof.
  intros out. unfold wstr. destruct (sink out s) as [n|] eqn:E.
  - exists false, (take n s). split; [done|]. split; [|split; [done|split]]; [|intros H; by rewrite H in E|].
    + exists (drop n s). by rewrite take_drop.
    + intros _. exists [], s, n. by rewrite app_nil_r.
  - exists true, s. done.
Qed.
Lemma writes_nil : writes sink (fun out => Ok (true, out)) [].
Proof. intros out. exists true, []. by rewrite app_nil_r. Qed.
Lemma writes_seq a b s1 s2 : writes sink a s1 -> writes sink b s2 -> writes sink (wseq a b) (s1 ++ s2).
Proof.
  intros Ha Hb out. unfold wseq. destruct (Ha out) as (ok&x&->&Hx&H1&H2&H5). simpl. destruct ok.
  - rewrite (H1 eq_refl) in *. destruct (Hb (out ++ s1)) as (ok&y&->&Hy&H3&H4&H6).
    exists ok, (s1 ++ y). rewrite app_assoc. split; [done|]. split; [by apply prefix_app|]. split; [|split; [done|]].
    + intros Hok. by rewrite H3.
    + intros Hok. destruct (H6 Hok) as (z&s0&n&Hz&->). exists (s1 ++ z), s0, n. by rewrite !app_assoc.
  - exists false, x. split; [done|]. split; [by apply prefix_app_r|]. done.
Qed.
Lemma writes_pieces l : writes sink (wpieces sink l) (concat l).
Proof. induction l as [|s l IH]; simpl; [apply writes_nil|]. apply writes_seq; [apply writes_wstr|done]. Qed.
Lemma writes_ext f g s : (forall out, f out = g out) -> writes sink f s -> writes sink g s.
Proof. intros H Hf out. rewrite <- H. apply Hf. Qed.
End writes.

(** ** Elements *)
Section elems.
Context (pr : profile) (sink : str -> str -> option nat).
Context (kfr : kind -> kind) (kdbg : kind -> str) (sdbg : str -> str).
Context (root : green) (Hwf : wfg root).

Lemma writes_head p c t : cursor_at root p = Some c -> tsub (erase root) p = Some t ->
  exists a b, trange (erase root) p = Some (a, b) /\
    writes sink (fmt_head sink kfr kdbg c) (kdbg (kfr (tkind t)) ++ s_at ++ dec a ++ s_dots ++ dec b).
Proof using Hwf.
  intros Hc Ht. exists (c_offset c), (c_offset c + blen (gtext (c_green c)))%N.
  rewrite (crange_trange root Hwf p c Hc). split; [done|].
  assert (c_kind c = tkind t) as Hk.
  { rewrite (cursor_at_tsub _ _ _ Hc) in Ht. injection Ht as <-. unfold c_kind. by destruct (c_green c). }
  match goal with |- writes _ _ ?s => replace s with (concat [kdbg (kfr (tkind t)); s_at; dec (c_offset c); s_dots;
    dec (c_offset c + blen (gtext (c_green c)))%N]) end; [|cbn [concat]; by rewrite app_nil_r].
  apply (writes_ext sink (wpieces sink [kdbg (kfr (tkind t)); s_at; dec (c_offset c); s_dots;
    dec (c_offset c + blen (gtext (c_green c)))%N])); [|apply writes_pieces].
  intros out. unfold fmt_head. by rewrite (c_text_range_at root Hwf p c Hc), Hk.
Qed.
Lemma writes_token p c : cursor_at root p = Some c -> c_is_node c = false ->
  writes sink (fmt_token sink kfr kdbg sdbg c) (elem_line kfr kdbg sdbg (erase root) p).
Proof using Hwf.
  intros Hc Hn. pose proof (cursor_at_tsub _ _ _ Hc) as Ht.
  destruct (writes_head p c _ Hc Ht) as (a&b&Hr&Hw). unfold elem_line. rewrite Ht, Hr.
  unfold c_is_node in Hn. unfold fmt_token, c_text. destruct (c_green c) as [|ad k s] eqn:Eg; [done|]. cbn [tkind erase gis_node] in *.
  match goal with |- writes _ _ ?x => replace x with ((kdbg (kfr k) ++ s_at ++ dec a ++ s_dots ++ dec b) ++ s_space ++ sdbg (shorten s)) end.
  2: by rewrite <- !app_assoc.
  apply writes_seq; [done|]. unfold shorten. destruct (N.ltb_spec (blen s) 25) as [Hlt|Hge].
  - replace (s_space ++ sdbg s) with (concat [s_space; sdbg s]) by (simpl; by rewrite app_nil_r). apply (writes_pieces sink [s_space; sdbg s]).
  - rewrite cut_at_ok by done. cbn [mbind res_bind].
    replace (s_space ++ sdbg (cut_after 21 s ++ s_more)) with (concat [s_space; sdbg (cut_after 21 s ++ s_more)])
      by (simpl; by rewrite app_nil_r). apply (writes_pieces sink [s_space; sdbg (cut_after 21 s ++ s_more)]).
Qed.
Lemma writes_element p c : cursor_at root p = Some c ->
  writes sink (fmt_element sink kfr kdbg sdbg c) (elem_line kfr kdbg sdbg (erase root) p ++ s_newline).
Proof using Hwf.
  intros Hc. unfold fmt_element. apply writes_seq; [|apply writes_wstr].
  destruct (c_is_node c) eqn:En; [|by apply writes_token].
  pose proof (cursor_at_tsub _ _ _ Hc) as Ht. destruct (writes_head p c _ Hc Ht) as (a&b&Hr&Hw).
  unfold elem_line. rewrite Ht, Hr. unfold c_is_node in En. destruct (c_green c); [|done]. simpl in *.
  by rewrite app_nil_r.
Qed.

(** ** The walk as a list of events *)
(** proof device, no counterpart in the code *)
Fixpoint fmt_events (evs : list (wevent cursor)) (level : Z) (out : str) : fres :=
  match evs with
  | [] => _ ← rassert (level =? 0)%Z; Ok (true, out)
  | Enter el :: evs' =>
      '(ok, out) ← wseq (wpieces sink (replicate (Z.to_nat level) s_indent)) (fmt_element sink kfr kdbg sdbg el) out;
      if ok : bool then level ← add_i32 pr level 1; fmt_events evs' level out
      else Ok (false, out)
  | Leave _ :: evs' => level ← add_i32 pr level (-1); fmt_events evs' level out
  end.
Lemma fmt_loop_events po evs fuel level out :
  yields preorder_wt_next po evs -> length evs < fuel ->
  fmt_loop pr sink kfr kdbg sdbg fuel po level out = fmt_events evs level out.
Proof.
  intros Hy. revert fuel level out. induction Hy as [po po' H1 H2|po e po' evs H1 _ IH]; intros fuel level out Hf; simpl in Hf;
    (destruct fuel as [|fuel]; [lia|]); simpl; rewrite H1; simpl; [done|].
  destruct e as [el|el].
  - destruct (wseq _ _ _) as [[[] out']|]; simpl; [|done|done].
    destruct (add_i32 pr level 1); simpl; [|done]. apply IH. lia.
  - destruct (add_i32 pr level (-1)); simpl; [|done]. apply IH. lia.
Qed.

(** the depths at which elements are entered; [None]: the level leaves [i32] *)
Fixpoint run_ev (evs : list (wevent pos)) (level : nat) : option (list (nat * pos)) :=
  match evs with
  | [] => if level =? 0 then Some [] else None
  | Enter q :: evs' => if (Z.of_nat level <? i32_max)%Z then cons (level, q) <$> run_ev evs' (S level) else None
  | Leave _ :: evs' => match level with 0 => None | S l => run_ev evs' l end
  end.
(** proof device, no counterpart in the code *)
Definition lines (p : pos) (l : list (nat * pos)) : str :=
  concat (map (fun lq => concat (replicate lq.1 s_indent) ++ elem_line kfr kdbg sdbg (erase root) (p ++ lq.2) ++ s_newline) l).
Lemma writes_events p w evs level l :
  Forall2 (ev_at root p) w evs -> run_ev w level = Some l -> (Z.of_nat level <= i32_max)%Z ->
  writes sink (fmt_events evs (Z.of_nat level)) (lines p l).
Proof using Hwf.
  intros HF. revert level l. induction HF as [|e e' w evs He _ IH]; intros level l; simpl.
  - destruct (Nat.eqb_spec level 0) as [->|]; [|done]. intros [= <-] _. apply writes_nil.
  - destruct e as [q|q], e' as [c|c]; try done; intros Hr Hle.
    + destruct (Z.ltb_spec (Z.of_nat level) i32_max) as [Hlt|]; [|done].
      destruct (run_ev w (S level)) as [l'|] eqn:El; [|done]. injection Hr as <-.
      change (lines p ((level, q) :: l')) with ((concat (replicate level s_indent) ++ elem_line kfr kdbg sdbg (erase root) (p ++ q) ++ s_newline) ++ lines p l').
      rewrite Nat2Z.id.
      eapply writes_ext; [|apply writes_seq; [apply writes_seq; [apply writes_pieces|by apply writes_element]|apply (IH (S level)); [done|lia]]].
      intros out. unfold wseq at 1. destruct (wseq _ _ _) as [[[] out']|]; simpl; [|done|done].
      unfold add_i32. replace (Z.of_nat level + 1)%Z with (Z.of_nat (S level)) by lia.
      replace (_ && _) with true; [done|]. symmetry. apply andb_true_iff. unfold i32_max in *. lia.
    + destruct level as [|level]; [done|].
      eapply writes_ext; [|apply (IH level); [done|lia]].
      intros out. unfold add_i32. replace (Z.of_nat (S level) + -1)%Z with (Z.of_nat level) by lia.
      replace (_ && _) with true; [done|]. symmetry. apply andb_true_iff. unfold i32_max in *. lia.
Qed.
End elems.

(** the walk enters every position at its depth *)
Lemma run_ev_tree t q w level :
  (forall r, r ∈ positions t -> (Z.of_nat (level + length r) < i32_max)%Z) ->
  run_ev (map (wmap (app q)) (twalk t) ++ w) level =
  app (map (fun r => (level + length r, q ++ r)) (positions t)) <$> run_ev w level.
Proof.
  rewrite twalk_eq_pruned. revert q w level. induction t as [k cs IH|k s] using tree_ind'; intros q w level Hb.
  - rewrite twalk_pruned_eq, positions_node. simpl.
    pose proof (Hb [] ltac:(rewrite positions_node; left)) as Hb0. simpl in Hb0. rewrite Nat.add_0_r in Hb0.
    destruct (Z.ltb_spec (Z.of_nat level) i32_max); [|lia].
    rewrite map_app, <- app_assoc.
    assert (forall i, (forall r, r ∈ positions_list i cs -> (Z.of_nat (level + length r) < i32_max)%Z) -> forall w',
      run_ev (map (wmap (app q)) (walk_list any (fun _ => false) i cs) ++ w') (S level) =
      app (map (fun r => (level + length r, q ++ r)) (positions_list i cs)) <$> run_ev w' (S level)) as Hl.
    { clear Hb. induction IH as [|c cs Hc _ IHcs]; intros i Hb w'; simpl.
      - by destruct (run_ev w' (S level)).
      - rewrite map_app, <- app_assoc, map_map. simpl in Hb.
        rewrite (map_ext _ (wmap (app (q ++ [i])))); [|intros [r|r]; simpl; by rewrite <- app_assoc].
        rewrite Hc.
        + rewrite IHcs by (intros r Hr; apply Hb, elem_of_app; by right).
          destruct (run_ev w' (S level)) as [l|]; [|done]. simpl. f_equal. rewrite map_app, map_map, <- app_assoc. f_equal.
          apply map_ext. intros r. simpl. rewrite <- app_assoc. simpl. f_equal. lia.
        + intros r Hr. assert (i :: r ∈ map (cons i) (positions c) ++ positions_list (S i) cs) as Hin.
          { apply elem_of_app. left. apply elem_of_list_fmap. eauto. }
          specialize (Hb _ Hin). simpl in Hb. lia. }
    rewrite Hl by (intros r Hr; apply Hb; rewrite positions_node; by right). simpl.
    destruct (run_ev w level); [|done]. simpl. by rewrite Nat.add_0_r, app_nil_r.
  - simpl. pose proof (Hb [] ltac:(left)) as Hb0. simpl in Hb0. rewrite Nat.add_0_r in *.
    destruct (Z.ltb_spec (Z.of_nat level) i32_max); [|lia]. rewrite app_nil_r. by destruct (run_ev w level).
Qed.

(** ** Trees that are too deep *)
(** proof device, no counterpart in the code *)
Fixpoint over (evs : list (wevent pos)) (level : nat) : bool :=
  match evs with
  | [] => false
  | Enter q :: evs' => (i32_max <=? Z.of_nat level)%Z || over evs' (S level)
  | Leave _ :: evs' => match level with 0 => false | S l => over evs' l end
  end.
(** proof device, no counterpart in the code *)
Definition too_deep (level : nat) (r : pos) : bool := (i32_max <=? Z.of_nat (level + length r))%Z.
Lemma over_tree t q w level :
  over (map (wmap (app q)) (twalk t) ++ w) level = existsb (too_deep level) (positions t) || over w level.
Proof.
  rewrite twalk_eq_pruned. revert q w level. induction t as [k cs IH|k s] using tree_ind'; intros q w level.
  - rewrite twalk_pruned_eq, positions_node. simpl. unfold too_deep at 1. simpl. rewrite Nat.add_0_r, <- orb_assoc. f_equal.
    rewrite map_app, <- app_assoc.
    assert (forall i w', over (map (wmap (app q)) (walk_list any (fun _ => false) i cs) ++ w') (S level) =
      existsb (too_deep level) (positions_list i cs) || over w' (S level)) as Hl.
    { induction IH as [|c cs Hc _ IHcs]; intros i w'; simpl; [done|].
      rewrite map_app, <- app_assoc, map_map.
      rewrite (map_ext _ (wmap (app (q ++ [i])))); [|intros [r|r]; simpl; by rewrite <- app_assoc].
      rewrite Hc, IHcs, orb_assoc, existsb_app. f_equal. f_equal. clear.
      induction (positions c) as [|r l IH]; simpl; [done|]. rewrite IH. f_equal. unfold too_deep. simpl. f_equal. lia. }
    rewrite Hl. done.
  - simpl. unfold too_deep. simpl. by rewrite Nat.add_0_r, orb_false_r.
Qed.
Lemma events_over sink kfr kdbg sdbg root p w evs level out :
  wfg root -> (forall o1 o2, sink o1 o2 = None) ->
  Forall2 (ev_at root p) w evs -> over w level = true -> (Z.of_nat level <= i32_max)%Z ->
  fmt_events Checked sink kfr kdbg sdbg evs (Z.of_nat level) out = Err Panic.
Proof.
  intros Hwf Hs HF. revert level out. induction HF as [|e e' w evs He _ IH]; intros level out; simpl; [done|].
  destruct e as [q|q], e' as [c|c]; try done; intros Hr Hle.
  - rewrite Nat2Z.id.
    destruct (writes_seq sink _ _ _ _ (writes_pieces sink (replicate level s_indent))
      (writes_element sink kfr kdbg sdbg root Hwf _ _ He) out) as (ok&x&->&_&_&Hok&_).
    rewrite (Hok Hs). simpl. unfold add_i32.
    destruct (Z.leb_spec i32_max (Z.of_nat level)) as [Hge|Hlt].
    + replace (_ && _) with false; [done|]. symmetry. apply andb_false_iff. right. unfold i32_max in *. lia.
    + replace (_ && _) with true by (symmetry; apply andb_true_iff; unfold i32_max in *; lia). simpl.
      replace (Z.of_nat level + 1)%Z with (Z.of_nat (S level)) by lia. apply IH; [done|lia].
  - destruct level as [|level]; [done|]. unfold add_i32.
    replace (_ && _) with true by (symmetry; apply andb_true_iff; unfold i32_max in *; lia). simpl.
    replace (Z.of_nat (S level) + -1)%Z with (Z.of_nat level) by lia. apply IH; [done|lia].
Qed.

(** ** The whole dump *)
Lemma map_wmap_nil w : map (wmap (app [])) w = (w : list (wevent pos)).
Proof. induction w as [|[q|q] w IH]; simpl; [done| |]; by f_equal. Qed.
Lemma walk_fuel root p c evs :
  Forall2 (ev_at root p) (twalk (erase (c_green c))) evs -> length evs < S (2 * gsize (c_green c)).
Proof.
  intros Hf. apply Forall2_length in Hf. rewrite <- Hf, twalk_eq_pruned.
  pose proof (twalk_pruned_length any (fun _ => false) (erase (c_green c))). rewrite gsize_erase. lia.
Qed.
Lemma fmt_node_writes pr sink kfr kdbg sdbg root p c :
  wfg root -> coherent root -> cursor_at root p = Some c ->
  (forall r, r ∈ positions (erase (c_green c)) -> (Z.of_nat (length r) < i32_max)%Z) ->
  writes sink (fmt_node pr sink kfr kdbg sdbg true c) (dump kfr kdbg sdbg (erase root) p).
Proof.
  intros Hwf Hco Hc Hb. destruct (preorder_wt_all root p c Hwf Hco Hc) as (evs&Hy&HF).
  unfold dump. rewrite (cursor_at_tsub _ _ _ Hc).
  apply (writes_ext sink (fmt_events pr sink kfr kdbg sdbg evs (Z.of_nat 0))).
  { intros out. symmetry. apply fmt_loop_events; [done|]. eapply walk_fuel, HF. }
  pose proof (run_ev_tree (erase (c_green c)) [] [] 0 Hb) as Hr.
  rewrite map_wmap_nil, app_nil_r in Hr.
  pose proof (writes_events pr sink kfr kdbg sdbg root Hwf p _ evs 0 _ HF Hr ltac:(done)) as Hw.
  rewrite app_nil_r in Hw. unfold lines in Hw. by rewrite map_map in Hw.
Qed.
Lemma fmt_node_too_deep sink kfr kdbg sdbg root p c r out :
  wfg root -> coherent root -> cursor_at root p = Some c -> (forall o1 o2, sink o1 o2 = None) ->
  r ∈ positions (erase (c_green c)) -> (i32_max <= Z.of_nat (length r))%Z ->
  fmt_node Checked sink kfr kdbg sdbg true c out = Err Panic.
Proof.
  intros Hwf Hco Hc Hs Hr Hd. destruct (preorder_wt_all root p c Hwf Hco Hc) as (evs&Hy&HF). unfold fmt_node.
  rewrite (fmt_loop_events _ _ _ _ _ _ evs); [|done|eapply walk_fuel, HF].
  apply (events_over sink kfr kdbg sdbg root p _ evs 0 out Hwf Hs HF); [|done].
  rewrite <- (app_nil_r (twalk _)), <- (map_wmap_nil (twalk _)), over_tree.
  apply orb_true_iff. left. apply existsb_exists. exists r. split; [by apply elem_of_list_In|].
  unfold too_deep. simpl. by apply Z.leb_le.
Qed.

(** ** Display *)
(** proof device, no counterpart in the code *)
Definition tok_text (t : tree) (p : pos) : option str := match tsub t p with Some (Token _ s) => Some s | _ => None end.
Lemma token_texts_positions t : filter_map (tok_text t) (positions t) = token_texts t.
Proof.
  induction t as [k cs IH|k s] using tree_ind'; [|done]. rewrite positions_node. simpl.
  assert (forall pre, Forall (fun t => filter_map (tok_text t) (positions t) = token_texts t) cs ->
    filter_map (tok_text (Node k (pre ++ cs))) (positions_list (length pre) cs) = concat (map token_texts cs)) as H.
  { clear IH. induction cs as [|c cs IHcs]; intros pre IH; simpl; [done|]. inversion IH as [|? ? H1 H2]; subst.
    rewrite filter_map_app. f_equal.
    - rewrite <- H1. clear. induction (positions c) as [|q l IHl]; simpl; [done|].
      rewrite IHl. unfold tok_text at 1. simpl. rewrite list_lookup_middle by done. done.
    - specialize (IHcs (pre ++ [c]) H2). rewrite app_length, Nat.add_1_r, <- app_assoc in IHcs. done. }
  apply (H [] IH).
Qed.
Lemma concat_token_texts t : concat (token_texts t) = ttext t.
Proof.
  induction t as [k cs IH|k s] using tree_ind'; simpl; [|by rewrite app_nil_r].
  induction IH as [|c cs Hc _ IHcs]; simpl; [done|]. by rewrite concat_app, Hc, IHcs.
Qed.
Section display.
Context (sink : str -> str -> option nat) (o : fopts).
(** proof device, no counterpart in the code *)
Fixpoint display_events (evs : list (wevent cursor)) (out : str) : fres :=
  match evs with
  | [] => Ok (true, out)
  | Enter el :: evs' => if c_is_node el then display_events evs' out
                        else wseq (display_token sink o el) (display_events evs') out
  | Leave _ :: evs' => display_events evs' out
  end.
Lemma display_loop_events po evs fuel out :
  yields preorder_wt_next po evs -> length evs < fuel ->
  display_loop sink fuel o po out = display_events evs out.
Proof.
  intros Hy. revert fuel out. induction Hy as [po po' H1 H2|po e po' evs H1 _ IH]; intros fuel out Hf; simpl in Hf;
    (destruct fuel as [|fuel]; [lia|]); simpl; rewrite H1; simpl; [done|].
  destruct e as [el|el]; [|apply IH; lia].
  destruct (c_is_node el); [apply IH; lia|]. unfold wseq.
  destruct (display_token sink o el out) as [[[] out']|]; simpl; [apply IH; lia|done|done].
Qed.
Lemma writes_display_events root p t w evs : tsub (erase root) p = Some t ->
  Forall2 (ev_at root p) w evs ->
  writes sink (display_events evs) (concat (map (pad o) (filter_map (tok_text t)
    (filter_map (fun e => match e with Enter q => Some q | Leave _ => None end) w)))).
Proof.
  intros Ht. induction 1 as [|e e' w evs He _ IH]; simpl; [apply writes_nil|].
  destruct e as [q|q], e' as [c|c]; try done; simpl.
  simpl in He. pose proof (cursor_at_tsub _ _ _ He) as Hs. rewrite tsub_app, Ht in Hs. simpl in Hs.
  unfold tok_text at 1. rewrite Hs. unfold c_is_node. destruct (c_green c) as [|a k s] eqn:E; simpl; [done|].
  apply writes_seq; [|done]. unfold display_token, c_text. rewrite E. apply writes_wstr.
Qed.
Lemma display_node_writes root p c :
  wfg root -> coherent root -> cursor_at root p = Some c ->
  writes sink (display_node sink o c) (concat (map (pad o) (token_texts (erase (c_green c))))).
Proof.
  intros Hwf Hco Hc. destruct (preorder_wt_all root p c Hwf Hco Hc) as (evs&Hy&HF).
  apply (writes_ext sink (display_events evs)).
  { intros out. symmetry. apply display_loop_events; [done|]. eapply walk_fuel, HF. }
  pose proof (writes_display_events root p _ _ _ (cursor_at_tsub _ _ _ Hc) HF) as H.
  by rewrite enter_twalk, token_texts_positions in H.
Qed.
End display.
Lemma pad_default s : pad fo_default s = s.
Proof. done. Qed.
