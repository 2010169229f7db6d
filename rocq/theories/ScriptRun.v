(** * Running the compound methods after any client program *)
From Verif Require Export CompoundFacts.

(** [outcome env prog st p Q]: run on the heap after [prog] (which ends in [st]), the
    program [p] returns some [a]; it has made the calls [ops] and no others, the trees are
    the same as before, and the client now holds the handles [F] besides those it held *)
Definition outcome (env : henv) (prog : list op) (st : sst) {A} (p : script A) (Q : A -> rs -> Prop) : Prop :=
  exists hs h os ops st' hs' h' os' a F,
    client env prog = (Ok (hs, os), h) /\ hexec env p hs h = (Ok (hs', a), h') /\
    client env (prog ++ ops) = (Ok (hs', os ++ os'), h') /\ s_run (prog ++ ops) s_init = SOk (st', os ++ os') /\
    s_trees st' = s_trees st /\ s_greens st' = s_greens st /\ s_leaked st' = s_leaked st /\
    held st' ≡ₚ F ++ held st /\ Q a F.
(** it panics *)
Definition panics (env : henv) (prog : list op) {A} (p : script A) : Prop :=
  exists hs h os h', client env prog = (Ok (hs, os), h) /\ hexec env p hs h = (Err Panic, h').

(** results at positions of tree [n] *)
Definition got (n : nat) (ps : list pos) (l : list nat) (F : rs) : Prop := length l = length ps /\ F ≡ₚ zip l (map (@pair nat pos n) ps).
(** proof device, no counterpart in the code *)
Definition got_opt (n : nat) (o : option pos) (a : option nat) (F : rs) : Prop :=
  match o, a with Some q, Some s => F = [(s, @pair nat pos n q)] | None, None => F = [] | _, _ => False end.
(** proof device, no counterpart in the code *)
Definition same_event {A B} (e : wevent A) (e' : wevent B) : Prop :=
  match e, e' with Enter _, Enter _ | Leave _, Leave _ => True | _, _ => False end.
(** proof device, no counterpart in the code *)
Definition got_events (n : nat) (evs : list (wevent pos)) (l : list (wevent nat)) (F : rs) : Prop :=
  Forall2 same_event evs l /\ got n (map ev_slot evs) (map ev_slot l) F.

Lemma client_app env prog ops hs os h : client env prog = (Ok (hs, os), h) ->
  forall hs' os' h', hrun env ops hs h = (Ok (hs', os'), h') -> client env (prog ++ ops) = (Ok (hs', os ++ os'), h').
Proof.
  unfold client. generalize h_init (HP ∅ [] 0). revert os. induction prog as [|o prog IH]; intros os hs0 h0 E hs' os' h' E'.
  - cbn [hrun] in E. injection E as <- <- <-. exact E'.
  - cbn [hrun app] in *. unfold mbind, hm_bind in *. destruct (hstep env o hs0 h0) as [[[hs1 x]|] h1]; [|done]. cbn [fst snd] in *.
    destruct (hrun env prog hs1 h1) as [[[hs2 xs]|] h2] eqn:E1; [|done]. unfold mret, hm_ret in *. injection E as <- <- <-.
    rewrite (IH _ _ _ E1 _ _ _ E'). done.
Qed.

Section run.
Context (env : henv) (Henv : henv_ok env).
Context (prog : list op) (st : sst) (os : list obs) (Hrun : s_run prog s_init = SOk (st, os)).
Lemma sim_root s n m t p x : holds st s n m t p x ->
  exists root c, wfg root /\ coherent root /\ t = erase root /\ cursor_at root p = Some c /\ x = erase (c_green c).
Proof using Henv Hrun.
  intros (Hs&Ht&Hx). destruct (reach env Henv _ _ _ Hrun) as (hs&h&_&(zs&lk&Hsim)&_).
  destruct (sim_slot _ _ _ _ _ _ _ _ Hsim Hs) as ([y [n' p']]&_&E&_&Hin). simpl in E. injection E as <- <-.
  pose proof (sm_sim _ _ _ _ _ _ Hsim) as HS. cbn [app] in HS, Hin. destruct (simH_alive _ _ _ _ _ HS Hin) as (r&m'&cz&Hl&HT&Hcz&_&Hsub). cbn [fst snd] in *.
  rewrite Ht in HT. injection HT as <- ->. destruct HS as [Hi _]. destruct (inv_loc_tree _ _ _ _ _ _ Hi Hl) as (cur&cx&Hcur&_&_&Hwf&_).
  pose proof Hi as (K&R&Hsh&Ho&_). destruct (loc_gsub _ _ Hsh _ _ _ Hl) as (cr&_&Hr&_).
  exists (gr (pc (P h)) r), cur. split_and!; [done| |done|done|].
  - unfold gr. rewrite Hr. eapply cohl_coherent; [apply (on_coh _ _ _ _ Ho)|by eapply owned_live].
  - rewrite (cursor_at_tsub _ _ _ Hcur) in Hx. by injection Hx.
Qed.
Lemma tracked_held {A B} F0 L (P : script A) (r : res B) R (Q : A -> rs -> Prop) :
  held st ≡ₚ F0 ++ L -> tracks (s_trees st) (s_greens st) (s_leaked st) F0 P r (kept F0 R) ->
  match r with
  | Ok b => (forall a F, R b a F -> Q a F) -> outcome env prog st P Q
  | Err Panic => panics env prog P
  | Err _ => True
  end.
Proof using Henv Hrun.
  intros HL Htr. destruct (reach env Henv _ _ _ Hrun) as (hs&h&Hcl&Hsim&_).
  assert (Hhas : has (s_trees st) (s_greens st) (s_leaked st) (F0 ++ L) st) by done.
  destruct r as [b|[| |]]; [|..|done|done].
  - intros HQ. specialize (Htr ltac:(done) ltac:(done) L st Hhas).
    destruct (hexec_sound env Henv P _ _ st hs h Hsim Htr) as (ops&st'&hs'&h'&(os'&Hr1&Hr2)&Hsim'&He).
    destruct (hexec env P hs h) as [[[hs'' a]|e] h''] eqn:Ex; [|by destruct He as (_&_&?&_)].
    destruct He as (->&->&b'&F'&E&(F1&HF&HR)&(E1&E2&E3)&Hl). injection E as <-.
    exists hs, h, os, ops, st', hs', h', os', a, F1. split_and!; try done.
    + by eapply client_app.
    + rewrite s_run_app, Hrun. simpl. by rewrite Hr1.
    + rewrite Hl, HF, HL, <- app_assoc. done.
    + by apply HQ.
  - specialize (Htr ltac:(done) ltac:(done) L st Hhas).
    destruct (hexec_sound env Henv P _ _ st hs h Hsim Htr) as (ops&st'&hs'&h'&_&_&He).
    destruct (hexec env P hs h) as [[[hs'' a]|e] h''] eqn:Ex; [by destruct He as (_&_&?&?&?&_)|].
    destruct He as (_&->&_). by exists hs, h, os, h''.
Qed.
Lemma held_one s n p : s_handles st !! s = Some (Some (@pair nat pos n p)) -> exists L, held st ≡ₚ [(s, (n, p))] ++ L.
Proof.
  intros Hs%elem_of_held. apply elem_of_list_split in Hs as (l1&l2&->). exists (l1 ++ l2). simpl. symmetry. apply Permutation_middle.
Qed.
Lemma tracked {A B} s n c (P : script A) (r : res B) R (Q : A -> rs -> Prop) :
  s_handles st !! s = Some (Some (@pair nat pos n (c_path c))) ->
  tracks (s_trees st) (s_greens st) (s_leaked st) [(s, (n, c_path c))] P r (kept [(s, (n, c_path c))] R) ->
  match r with
  | Ok b => (forall a F, R b a F -> Q a F) -> outcome env prog st P Q
  | Err Panic => panics env prog P
  | Err _ => True
  end.
Proof using Henv Hrun. intros Hs Htr. destruct (held_one _ _ _ Hs) as [L HL]. by apply (tracked_held [(s, (n, c_path c))] L). Qed.
Lemma tracked_ok {A B} s n c (P : script A) (r : res B) b R (Q : A -> rs -> Prop) :
  s_handles st !! s = Some (Some (@pair nat pos n (c_path c))) ->
  tracks (s_trees st) (s_greens st) (s_leaked st) [(s, (n, c_path c))] P r (kept [(s, (n, c_path c))] R) ->
  r = Ok b -> (forall a F, R b a F -> Q a F) -> outcome env prog st P Q.
Proof using Henv Hrun. intros Hs Htr ->. exact (tracked s n c P (Ok b) R Q Hs Htr). Qed.
Lemma tracked_panic {A B} s n c (P : script A) (r : res B) R :
  s_handles st !! s = Some (Some (@pair nat pos n (c_path c))) ->
  tracks (s_trees st) (s_greens st) (s_leaked st) [(s, (n, c_path c))] P r (kept [(s, (n, c_path c))] R) ->
  r = Err Panic -> panics env prog P.
Proof using Henv Hrun. intros Hs Htr ->. exact (tracked s n c P (Err Panic) R (fun _ _ => True) Hs Htr). Qed.
End run.

(** ** From cursors to positions *)
Section pos.
Context (n : nat) (root : green).
Lemma Rlist_got (R : cursor -> nat -> rs -> Prop) cl l F : (forall c s F, R c s F -> F = [(s, @pair nat pos n (c_path c))]) ->
  Rlist R cl l F -> got n (map c_path cl) l F.
Proof.
  intros HR. revert l F. induction cl as [|c cl IH]; intros [|s l] F H; simpl in H; try done.
  - subst F. by split.
  - destruct H as (F1&F2&HF&H1&H2). destruct (IH _ _ H2) as [Hl Hp]. apply HR in H1 as ->. split; [simpl; by rewrite Hl|]. simpl. rewrite HF, Hp. done.
Qed.
Lemma Rlist_got_events tok start cl l F : Rlist (Rev n root tok start) cl l F ->
  Forall2 same_event cl l /\ got n (map (fun e => c_path (ev_slot e)) cl) (map ev_slot l) F.
Proof.
  revert l F. induction cl as [|c cl IH]; intros [|s l] F H; simpl in H; try done.
  - subst F. split; [constructor|]. by split.
  - destruct H as (F1&F2&HF&H1&H2). destruct (IH _ _ H2) as [Hs [Hl Hp]]. unfold Rev in H1.
    assert (E : same_event c s /\ F1 = [(ev_slot s, @pair nat pos n (c_path (ev_slot c)))]).
    { destruct c, s; try done; by destruct H1 as [[[_ ->] _] _]. }
    destruct E as [E1 ->]. split; [by constructor|]. split; [simpl; by rewrite Hl|]. simpl. rewrite HF, Hp. done.
Qed.
Lemma at_paths ps cl : Forall2 (fun q c => cursor_at root q = Some c) ps cl -> map c_path cl = ps.
Proof. induction 1 as [|q c ps cl H _ IH]; simpl; [done|]. rewrite IH. f_equal. by apply (cin_at root q c). Qed.
Lemma at_children_map p is cl : at_children root p is cl -> Forall2 (fun q c => cursor_at root q = Some c) (map (fun i => p ++ [i]) is) cl.
Proof. intros H. induction H; simpl; by constructor. Qed.
Lemma at_children_paths p is cl : at_children root p is cl -> map c_path cl = map (fun i => p ++ [i]) is.
Proof. intros H. apply at_paths. induction H; simpl; by constructor. Qed.
Lemma at_below_paths p qs cl : Forall2 (fun q c => cursor_at root (p ++ q) = Some c) qs cl -> map c_path cl = map (app p) qs.
Proof. intros H. apply at_paths. induction H; simpl; by constructor. Qed.
Lemma ev_at_paths p evs cl : Forall2 (ev_at root p) evs cl -> Forall2 same_event evs cl /\ map (fun e => c_path (ev_slot e)) cl = map (fun e => p ++ ev_slot e) evs.
Proof.
  induction 1 as [|e e' evs cl H _ [IH1 IH2]]; simpl; [done|]. rewrite IH2. unfold ev_at in H. destruct e, e'; try done; apply cin_at in H as [_ H]; cbn [ev_slot]; rewrite H; (split; [by constructor|done]).
Qed.
End pos.

Lemma same_event_trans {A B C D} (f : A -> D) (evs : list (wevent A)) (l : list (wevent B)) (a : list (wevent C)) :
  Forall2 same_event evs l -> Forall2 same_event l a -> Forall2 same_event (map (wmap f) evs) a.
Proof.
  revert l a. induction evs as [|e evs IH]; intros l a H1 H2; inversion H1; subst; inversion H2; subst; simpl; constructor; [|by eapply IH].
  by match goal with H : same_event e ?y, H' : same_event ?y ?z |- _ => destruct e, y, z end.
Qed.

(** ** Iterators *)
Lemma sel_go_ext {A} (P Q : A -> bool) l i : (forall x, P x = Q x) -> sel_go P i l = sel_go Q i l.
Proof. intros H. revert i. induction l as [|x l IH]; intros i; simpl; [done|]. by rewrite H, IH. Qed.
Lemma sel_from_ext {A} (P Q : A -> bool) l i : (forall x, P x = Q x) -> sel_from P l i = sel_from Q l i.
Proof. intros H. unfold sel_from. by apply sel_go_ext. Qed.
Lemma yields_drive next f g po evs : yields (drive next f) po evs -> (forall c, Enter c ∈ evs -> f c = g c) -> yields (drive next g) po evs.
Proof.
  induction 1 as [po po' H1 H2|po e po' evs H1 _ IH]; intros Hfg.
  - unfold drive in *. assert (forall q q', (('(o, po'0) ← next q; Ok (o, match o with Some (Enter c) => if f c then skip_subtree po'0 else po'0 | _ => po'0 end)) : res (option (wevent cursor) * preorder)) = Ok (None, q') ->
      ('(o, po'0) ← next q; Ok (o, match o with Some (Enter c) => if g c then skip_subtree po'0 else po'0 | _ => po'0 end)) = Ok (None, q')).
    { intros q q'. destruct (next q) as [[[]]|]; simpl; congruence. }
    eapply yields_nil; eauto.
  - assert (E : drive next g po = Ok (Some e, po')).
    { unfold drive in *. destruct (next po) as [[o po1]|]; simpl in *; [|done]. injection H1 as -> <-. destruct e as [c|]; [|done].
      rewrite (Hfg c); [done|]. left. }
    eapply yields_cons; [exact E|]. apply IH. intros c Hc. apply Hfg. by right.
Qed.
(** all elements, or the nodes only *)
Definition pick (tok : bool) : tree -> bool := if tok then any else is_node.
(** the positions of the siblings visited by [siblings(direction)] *)
Definition sibling_positions (tok : bool) (d : direction) (t : tree) (p : pos) : list pos :=
  match last p with
  | None => [[]]
  | Some i =>
      let q := removelast p in
      let cs := match tsub t q with Some y => tchildren y | None => [] end in
      let Q := pick tok in
      map (fun j => q ++ [j]) (i :: match d with Next => sel_from Q cs (S i) | Prev => sel_below Q cs i end)
  end.
Section iter.
Context (n : nat) (m : bool) (root : green) (Hwf : wfg root) (Hco : coherent root).
Lemma collect_children tok c fuel : cin root c ->
  length (sel_from (pick tok) (tchildren (erase (c_green c))) 0) < fuel ->
  exists l, collect (kids_next tok) fuel (children_new c) = Ok l /\
    map c_path l = map (fun i => c_path c ++ [i]) (sel_from (pick tok) (tchildren (erase (c_green c))) 0).
Proof using Hwf.
  intros Hc Hf. assert (exists l, yields (kids_next tok) (children_new c) l /\ at_children root (c_path c) (sel_from (pick tok) (tchildren (erase (c_green c))) 0) l) as (l&Hy&Hl).
  { destruct tok; [by apply children_with_tokens_yields|by apply children_yields]. }
  exists l. split; [|by eapply at_children_paths]. eapply yields_collect; [exact Hy|]. by rewrite <- (Forall2_length _ _ _ Hl).
Qed.
(** proof device, no counterpart in the code *)
Definition kind_sel (tok : bool) (f : kind -> bool) (x : tree) : bool := f (tkind x) && (tok || is_node x).
Lemma collect_by_kind tok f c fuel : cin root c -> length (sel_from (kind_sel tok f) (tchildren (erase (c_green c))) 0) < fuel ->
  exists l, (o ← c_by_kind tok f (children_new c); collect (successors_next (c_nav (by_kind_nav tok f))) fuel o) = Ok l /\
    map c_path l = map (fun i => c_path c ++ [i]) (sel_from (kind_sel tok f) (tchildren (erase (c_green c))) 0).
Proof using Hwf.
  intros Hc Hf.
  assert (exists o l, c_by_kind tok f (children_new c) = Ok o /\ yields (successors_next (c_nav (by_kind_nav tok f))) o l /\
    at_children root (c_path c) (sel_from (kind_sel tok f) (tchildren (erase (c_green c))) 0) l) as (o&l&Ho&Hy&Hl).
  { destruct tok.
    - destruct (children_with_tokens_by_kind_yields root Hwf _ _ Hc f) as (o&l&Ho&Hy&Hl). exists o, l. split_and!; [done|done|].
      erewrite sel_from_ext; [exact Hl|]. intros y. unfold kind_sel. simpl. apply andb_true_r.
    - destruct (children_by_kind_yields root Hwf _ _ Hc f) as (o&l&Ho&Hy&Hl). by exists o, l. }
  exists l. split; [|by eapply at_children_paths]. rewrite Ho. cbn [mbind res_bind]. eapply yields_collect; [exact Hy|]. by rewrite <- (Forall2_length _ _ _ Hl).
Qed.
Lemma collect_ancestors c fuel : cin root c ->
  length (if c_is_node c then prefixes_rev (c_path c) else tail (prefixes_rev (c_path c))) < fuel ->
  exists l, collect ancestors_next fuel (ancestors_new c) = Ok l /\
    map c_path l = if c_is_node c then prefixes_rev (c_path c) else tail (prefixes_rev (c_path c)).
Proof using Type.
  intros Hc Hf. assert (exists l, yields ancestors_next (ancestors_new c) l /\
    Forall2 (fun q c => cursor_at root q = Some c) (if c_is_node c then prefixes_rev (c_path c) else tail (prefixes_rev (c_path c))) l) as (l&Hy&Hl).
  { destruct (ancestors_yields root _ _ Hc) as (l&Hy&Hl). unfold ancestors_new. destruct (c_is_node c); [eauto|].
    inversion Hy as [? ? H1 H2|? a s' l' H1 H2]; subst; [by simpl in H1|]. simpl in H1. injection H1 as <- <-. exists l'. split; [done|].
    by inversion Hl. }
  exists l. split; [|by apply (at_paths root)]. eapply yields_collect; [exact Hy|]. by rewrite <- (Forall2_length _ _ _ Hl).
Qed.
Lemma collect_siblings tok d c fuel : cin root c -> length (sibling_positions tok d (erase root) (c_path c)) < fuel ->
  exists l, collect (successors_next (c_nav (sib_nav tok d))) fuel (Some c) = Ok l /\ map c_path l = sibling_positions tok d (erase root) (c_path c).
Proof using Hwf.
  intros Hc Hf. assert (exists l, yields (successors_next (c_nav (sib_nav tok d))) (Some c) l /\
    Forall2 (fun q c => cursor_at root q = Some c) (sibling_positions tok d (erase root) (c_path c)) l) as (l&Hy&Hl).
  { unfold sibling_positions. destruct (last (c_path c)) as [i|] eqn:El.
    - apply last_Some in El as [q Eq]. unfold cin in Hc. rewrite Eq in Hc |- *. rewrite removelast_last.
      pose proof Hc as Hc'. apply cursor_at_snoc_inv in Hc' as (c0&ch&H0&_). rewrite (cursor_at_tsub _ _ _ H0).
      destruct tok.
      + destruct (siblings_with_tokens_yields root Hwf q c0 H0 d i c Hc) as (l&Hy&Hl). exists l. split; [by destruct d|]. by apply at_children_map.
      + destruct (siblings_yields root Hwf q c0 H0 d i c Hc) as (l&Hy&Hl). exists l. split; [by destruct d|]. by apply at_children_map.
    - apply last_None in El. exists [c]. unfold cin in Hc. rewrite El in Hc. split; [|by repeat constructor]. injection Hc as <-.
      eapply yields_cons; [by destruct tok, d|]. by eapply yields_nil. }
  exists l. split; [|by apply (at_paths root)]. eapply yields_collect; [exact Hy|]. by rewrite <- (Forall2_length _ _ _ Hl).
Qed.
(** proof device, no counterpart in the code *)
Definition prune_at (skip : look -> bool) (t : tree) (p : pos) (x : tree) (q : pos) : bool :=
  match tsub x q with Some y => skip (look_at m t (p ++ q) y) | None => false end.
Lemma collect_preorder tok skip c fuel : cin root c ->
  let evs := twalk_pruned (pick tok) (prune_at skip (erase root) (c_path c) (erase (c_green c))) (erase (c_green c)) in
  length evs < fuel ->
  exists l, collect (drive (c_walk_next tok) (fun c => skip (look_of m root c))) fuel (preorder_new c) = Ok l /\
    Forall2 same_event evs l /\ map (fun e => c_path (ev_slot e)) l = map (fun e => c_path c ++ ev_slot e) evs.
Proof using Hwf Hco.
  intros Hc evs Hf.
  set (pr := fun q => match cursor_at root q with Some d => skip (look_of m root d) | None => false end).
  assert (exists l, yields (drive (c_walk_next tok) (fun c => pr (c_path c))) (preorder_new c) l /\ Forall2 (ev_at root (c_path c)) evs l) as (l&Hy&Hl).
  { assert (Hpr : forall sel, twalk_pruned sel (fun q => pr (c_path c ++ q)) (erase (c_green c)) =
       twalk_pruned sel (prune_at skip (erase root) (c_path c) (erase (c_green c))) (erase (c_green c))).
    { intros sel. apply twalk_pruned_ext. intros q. unfold pr, prune_at.
      assert (Hq : tsub (erase (c_green c)) q = tsub (erase root) (c_path c ++ q)) by (by rewrite tsub_app, (cursor_at_tsub _ _ _ Hc)).
      rewrite Hq. destruct (cursor_at root (c_path c ++ q)) as [d|] eqn:Ed.
      - rewrite (cursor_at_tsub _ _ _ Ed). unfold look_of. by rewrite (proj2 (cin_at _ _ _ Ed)).
      - apply cursor_at_None in Ed. by rewrite erase_gsub, Ed. }
    subst evs. rewrite <- Hpr. destruct tok.
    - by apply preorder_wt_yields.
    - by apply preorder_yields. }
  assert (Hy' : yields (drive (c_walk_next tok) (fun c => skip (look_of m root c))) (preorder_new c) l).
  { eapply yields_drive; [exact Hy|]. intros d Hd. simpl. unfold pr.
    apply elem_of_list_lookup in Hd as [i Hi]. destruct (Forall2_lookup_r _ _ _ _ _ Hl Hi) as (e&_&He). unfold ev_at in He. destruct e; [|done].
    apply cin_at in He as [He _]. by rewrite He. }
  exists l. split; [|by apply (ev_at_paths root)]. eapply yields_collect; [exact Hy'|]. by rewrite <- (Forall2_length _ _ _ Hl).
Qed.
End iter.
Lemma collect_descendants root tok c fuel : wfg root -> coherent root -> cin root c -> (tok = false -> c_is_node c = true) ->
  let evs := if tok then twalk (erase (c_green c)) else twalk_nodes (erase (c_green c)) in
  length evs < fuel ->
  exists l, filter_map enter_only <$> collect (c_walk_next tok) fuel (preorder_new c) = Ok l /\ map c_path l = map (app (c_path c)) (walk_enters evs).
Proof.
  intros Hwf Hco Hc Hn evs Hf.
  assert (exists l, yields (c_walk_next tok) (preorder_new c) l /\ Forall2 (ev_at root (c_path c)) evs l) as (l&Hy&Hl).
  { subst evs. destruct tok; [by apply preorder_wt_all|by apply preorder_all; auto]. }
  exists (filter_map enter_only l). erewrite yields_collect; [|exact Hy|by rewrite <- (Forall2_length _ _ _ Hl)]. split; [done|].
  eapply at_below_paths. by apply Forall2_enters.
Qed.

(** ** One element *)
Section one.
Context (n : nat) (root : green) (Hwf : wfg root).
Lemma Ropt_got o a F q : Ropt (Rc n root) o a F -> c_path <$> o = q -> got_opt n q a F.
Proof using Type. intros H <-. unfold Ropt, got_opt in *. destruct o, a; simpl; try done. by destruct H as [_ ->]. Qed.
Lemma at_paths_opt (o : option pos) : (forall q, o = Some q -> is_Some (tsub (erase root) q)) -> c_path <$> (o ≫= cursor_at root) = o.
Proof using Type.
  intros H. destruct o as [q|]; [|done]. simpl. destruct (cursor_at root q) as [c|] eqn:E; simpl.
  - by rewrite (proj2 (cin_at _ _ _ E)).
  - destruct (H q eq_refl) as [x Hx]. apply cursor_at_None in E. by rewrite erase_gsub, E in Hx.
Qed.
Lemma Rtao_got r a F ps : Rtao n root r a F -> map c_path (tao_list r) = ps -> got n ps (tao_list a) F.
Proof using Type.
  intros H <-. unfold Rtao in H. destruct r, a; try done; simpl in *.
  - subst. by split.
  - destruct H as [_ ->]. by split.
  - destruct H as (F1&F2&HF&[_ ->]&[_ ->]). by split.
Qed.
End one.
Lemma leftmost_tsub x q : leftmost x = Some q -> is_Some (tsub x q).
Proof.
  revert q. induction x as [k cs IH|k s] using tree_ind'; intros q; simpl; [|intros [= <-]; by eexists].
  destruct cs as [|c cs]; [done|]. apply Forall_cons in IH as [IH _]. destruct (leftmost c) as [q'|] eqn:E; [|done]. intros [= <-]. simpl. by apply IH.
Qed.
Lemma rightmost_tsub x q : rightmost x = Some q -> is_Some (tsub x q).
Proof.
  revert q. induction x as [k cs IH|k s] using tree_ind'; intros q; [|intros [= <-]; by eexists].
  rewrite rightmost_node, rm_go_last. destruct (last cs) as [c|] eqn:E; [|done]. destruct (rightmost c) as [q'|] eqn:Er; [|done]. intros [= <-].
  apply last_Some in E as [cs' ->]. rewrite app_length. simpl. replace (length cs' + 1 - 1) with (length cs') by lia. rewrite lookup_app_r, Nat.sub_diag by lia. simpl.
  apply Forall_app in IH as [_ IH]. apply Forall_cons in IH as [IH _]. by apply IH.
Qed.
(** the token after [p]: the leftmost of the nearest following sibling of [p] or of an ancestor *)
Definition token_after (t : tree) (p : pos) : option pos := q ← up_next t p; x ← tsub t q; app q <$> leftmost x.
(** proof device, no counterpart in the code *)
Definition token_before (t : tree) (p : pos) : option pos := q ← up_prev t p; x ← tsub t q; app q <$> rightmost x.
Section tokens.
Context (root : green) (Hwf : wfg root).
Lemma first_token_path c : cin root c -> exists o, first_token c = Ok o /\ c_path <$> o = app (c_path c) <$> leftmost (erase (c_green c)).
Proof using Hwf.
  intros Hc. eexists. split; [by apply first_token_at|]. destruct (leftmost _) as [q|] eqn:E; [|done]. simpl.
  apply (at_paths_opt root (Some (c_path c ++ q))). intros ? [= <-]. rewrite tsub_app, (cursor_at_tsub _ _ _ Hc). by apply leftmost_tsub.
Qed.
Lemma last_token_path c : cin root c -> exists o, last_token c = Ok o /\ c_path <$> o = app (c_path c) <$> rightmost (erase (c_green c)).
Proof using Hwf.
  intros Hc. eexists. split; [by apply last_token_at|]. destruct (rightmost _) as [q|] eqn:E; [|done]. simpl.
  apply (at_paths_opt root (Some (c_path c ++ q))). intros ? [= <-]. rewrite tsub_app, (cursor_at_tsub _ _ _ Hc). by apply rightmost_tsub.
Qed.
Lemma next_token_path c : cin root c -> exists o, next_token c = Ok o /\ c_path <$> o = token_after (erase root) (c_path c).
Proof using Hwf.
  intros Hc. eexists. split; [by apply next_token_at|]. unfold token_after. destruct (up_next _ _) as [q|]; [|done]. simpl. destruct (tsub _ q) as [x|] eqn:Ex; [|done]. simpl.
  destruct (leftmost x) as [q'|] eqn:E; [|done]. simpl. apply (at_paths_opt root (Some (q ++ q'))). intros ? [= <-]. rewrite tsub_app, Ex. by apply leftmost_tsub.
Qed.
Lemma prev_token_path c : cin root c -> exists o, prev_token c = Ok o /\ c_path <$> o = token_before (erase root) (c_path c).
Proof using Hwf.
  intros Hc. eexists. split; [by apply prev_token_at|]. unfold token_before. destruct (up_prev _ _) as [q|]; [|done]. simpl. destruct (tsub _ q) as [x|] eqn:Ex; [|done]. simpl.
  destruct (rightmost x) as [q'|] eqn:E; [|done]. simpl. apply (at_paths_opt root (Some (q ++ q'))). intros ? [= <-]. rewrite tsub_app, Ex. by apply rightmost_tsub.
Qed.
End tokens.

(** ** Programs that look at what earlier calls returned *)
(** [p] uses only variables that are full and of the right type *)
Fixpoint typed_script {A} (p : script A) (st : sst) : Prop :=
  match p with
  | PRet _ | PPanic | PDiverge => True
  | POp o k => typed o st /\ match s_step o st with SOk (st', x) => typed_script (k (s_ans st st' x)) st' | _ => True end
  | PEq a b k => full st a /\ full st b /\ forall r, (s_handles st !! a = s_handles st !! b -> r = true) -> typed_script (k r) st
  end.
Lemma typed_script_swp {A} (p : script A) st : wf_st st -> typed_script p st -> swp p (fun _ _ => True) (fun _ _ => True) st.
Proof.
  revert st. induction p as [a| | |o k IH|a b k IH]; intros st Hwf Ht; cbn [swp typed_script] in *; [done..| |].
  - destruct Ht as [Ho Ht]. pose proof (typed_step o st Hwf) as Hg. destruct (s_step o st) as [[st1 x]| | |]; [|done|done|by destruct Hg]. simpl in Hg. by apply IH.
  - destruct Ht as ([ha Ha]&[hb Hb]&Ht). destruct (s_look_wf st a ha Hwf Ha) as [la Hla]. destruct (s_look_wf st b hb Hwf Hb) as [lb Hlb].
    exists ha, hb, la, lb. split_and!; try done. intros r [Hr _]. apply IH; [done|]. apply Ht. intros E. apply Hr. rewrite Ha, Hb in E. by injection E.
Qed.
(** a client that walks down first children as long as they are nodes, and detaches the
    last one: the number of calls depends on the tree *)
Fixpoint p_detach_deepest (fuel : nat) (s : nat) : script nat :=
  match fuel with
  | 0 => PDiverge
  | S fuel' =>
      o ← p_nav NFirstChild s;
      match o with
      | Some c => _ ← p_drop s; p_detach_deepest fuel' c
      | None => POp (ODetach s) (fun _ => PRet s)
      end
  end.
(** ** For examples *)
(** proof device, no counterpart in the code *)
Fixpoint p_looks (l : list nat) : script (list look) :=
  match l with [] => PRet [] | s :: l' => x ← p_look s; xs ← p_looks l'; PRet (x :: xs) end.
(** proof device, no counterpart in the code *)
Definition run_script (env : henv) (prog : list op) {A} (p : script A) : res A :=
  match client env prog with
  | (Ok (hs, _), h) => match hexec env p hs h with (Ok (_, a), _) => Ok a | (Err e, _) => Err e end
  | (Err e, _) => Err e
  end.
(** proof device, no counterpart in the code *)
Fixpoint typed_scriptb {A} (p : script A) (st : sst) : bool :=
  match p with
  | PRet _ | PPanic | PDiverge => true
  | POp o k => typedb o st && match s_step o st with SOk (st', x) => typed_scriptb (k (s_ans st st' x)) st' | _ => true end
  | PEq a b k => fullb st a && fullb st b && typed_scriptb (k true) st && typed_scriptb (k false) st
  end.
Lemma typed_scriptb_ok {A} (p : script A) st : typed_scriptb p st = true -> typed_script p st.
Proof.
  revert st. induction p as [a| | |o k IH|a b k IH]; intros st; simpl; [done..| |].
  - intros [Ho%typedb_ok Hr]%andb_true_iff. split; [done|]. destruct (s_step o st) as [[st1 x]| | |]; auto.
  - intros [[[Ha%fullb_ok Hb%fullb_ok]%andb_true_iff Ht]%andb_true_iff Hf]%andb_true_iff. split_and!; [done|done|]. intros [] _; auto.
Qed.
