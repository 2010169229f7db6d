(** * Facts about preorder traversal *)
From Verif Require Export CursorIter.

(** ** The walk of the specification, with the inner loop named *)
(** proof device, no counterpart in the code *)
Fixpoint walk_list (sel : tree -> bool) (prune : pos -> bool) (i : nat) (cs : list tree) : list (wevent pos) :=
  match cs with
  | [] => []
  | c :: cs' =>
      (if sel c then map (wmap (cons i)) (twalk_pruned sel (fun q => prune (i :: q)) c) else []) ++
      walk_list sel prune (S i) cs'
  end.
Lemma twalk_pruned_eq sel prune t :
  twalk_pruned sel prune t =
  Enter [] :: (if prune [] then [] else walk_list sel prune 0 (tchildren t)) ++ [Leave []].
Proof.
  destruct t as [k cs|k s]; simpl; [|done]. f_equal. f_equal. destruct (prune []); [done|].
  generalize 0. induction cs as [|c cs IH]; intros i; simpl; [done|]. by rewrite IH.
Qed.
Lemma walk_list_first sel prune cs lo o :
  is_first_from sel cs lo o ->
  walk_list sel prune lo (drop lo cs) =
  match o with
  | Some j => match cs !! j with
              | Some c => map (wmap (cons j)) (twalk_pruned sel (fun q => prune (j :: q)) c)
              | None => []
              end ++ walk_list sel prune (S j) (drop (S j) cs)
  | None => []
  end.
Proof.
  intros H. remember (length cs - lo) as n eqn:Hn. revert lo H Hn.
  induction n as [|n IH]; intros lo H Hn.
  - rewrite drop_ge by lia. destruct o as [j|]; [|done].
    destruct H as (H1&(x&Hx&_)&_). apply lookup_lt_Some in Hx. lia.
  - destruct (lookup_lt_is_Some_2 cs lo) as [x Hx]; [lia|].
    rewrite (drop_S _ x lo Hx). simpl. destruct (sel x) eqn:HP.
    + destruct o as [j|]; [|specialize (H lo x ltac:(lia) Hx); congruence].
      destruct H as (H1&_&H2). assert (j = lo) as ->; [|by rewrite Hx].
      destruct (decide (lo < j)); [|lia]. specialize (H2 lo x ltac:(lia) Hx). congruence.
    + simpl. apply IH; [|lia].
      destruct o as [j|].
      * destruct H as (H1&(y&Hy&HPy)&H2). split; [|split; [eauto|]].
        -- destruct (decide (lo = j)) as [->|]; [|lia]. congruence.
        -- intros k z Hk. apply H2. lia.
      * intros k z Hk. apply H. lia.
Qed.
Lemma twalk_pruned_ext sel p1 p2 t : (forall q, p1 q = p2 q) -> twalk_pruned sel p1 t = twalk_pruned sel p2 t.
Proof.
  revert p1 p2. induction t as [k cs IH|k s] using tree_ind'; intros p1 p2 H; rewrite !twalk_pruned_eq, H; [|done].
  f_equal. f_equal. destruct (p2 []); [done|]. simpl. generalize 0.
  induction IH as [|c cs Hc _ IHcs]; intros i; simpl; [done|]. rewrite IHcs. f_equal.
  destruct (sel c); [|done]. f_equal. apply Hc. intros q. apply H.
Qed.
Lemma twalk_eq_pruned t : twalk t = twalk_pruned any (fun _ => false) t.
Proof.
  induction t as [k cs IH|k s] using tree_ind'; [|done].
  rewrite twalk_pruned_eq. simpl. f_equal. f_equal. generalize 0.
  induction IH as [|c cs Hc _ IHcs]; intros i; simpl; [done|]. by rewrite Hc, IHcs.
Qed.
Lemma twalk_nodes_eq_pruned t : is_node t = true -> twalk_nodes t = twalk_pruned is_node (fun _ => false) t.
Proof.
  induction t as [k cs IH|k s] using tree_ind'; [|done]. intros _.
  rewrite twalk_pruned_eq. simpl. f_equal. f_equal. generalize 0.
  induction IH as [|c cs Hc _ IHcs]; intros i; simpl; [done|]. rewrite IHcs. f_equal.
  destruct (is_node c) eqn:E; [by rewrite Hc|]. by destruct c.
Qed.
Lemma twalk_pruned_length sel prune t : length (twalk_pruned sel prune t) <= 2 * tsize t.
Proof.
  revert prune. induction t as [k cs IH|k s] using tree_ind'; intros prune; rewrite twalk_pruned_eq.
  - simpl. rewrite app_length. simpl.
    assert (forall i, length (walk_list sel prune i cs) <= 2 * sum_list (map tsize cs)) as H.
    { clear -IH. induction IH as [|c cs Hc _ IHcs]; intros i; simpl; [lia|]. rewrite app_length.
      specialize (IHcs (S i)). specialize (Hc (fun q => prune (i :: q))).
      unfold pos in *. destruct (sel c); simpl; [rewrite length_map|]; lia. }
    specialize (H 0). unfold pos in *. destruct (prune []); simpl; lia.
  - simpl. destruct (prune []); simpl; lia.
Qed.
Lemma enter_twalk t : filter_map (fun e => match e with Enter q => Some q | Leave _ => None end) (twalk t) = positions t.
Proof.
  induction t as [k cs IH|k s] using tree_ind'; [|done]. rewrite twalk_eq_pruned, twalk_pruned_eq, positions_node.
  simpl. f_equal. rewrite filter_map_app. simpl. rewrite app_nil_r. generalize 0.
  induction IH as [|c cs Hc _ IHcs]; intros i; simpl; [done|]. rewrite filter_map_app, IHcs. f_equal.
  rewrite <- Hc, twalk_eq_pruned. generalize (twalk_pruned any (fun _ => false) c). intros l.
  induction l as [|[q|q] l IHl]; simpl; [done| |done]. by f_equal.
Qed.

(** ** Sizes *)
Lemma gsize_erase g : gsize g = tsize (erase g).
Proof.
  induction g as [a k tl cs IH|] using green_ind'; simpl; [|done]. f_equal.
  induction IH as [|c cs Hc _ IHcs]; simpl; [done|]. by rewrite Hc, IHcs.
Qed.
Lemma gsize_pos g : 0 < gsize g.
Proof. destruct g; simpl; lia. Qed.
Lemma gsize_child g i c : gchildren g !! i = Some c -> gsize c.2 < gsize g.
Proof.
  destruct g as [a k tl cs|]; simpl; [|by rewrite lookup_nil].
  revert i. induction cs as [|d cs IH]; intros i; [by rewrite lookup_nil|]. destruct i as [|i]; simpl.
  - intros [= ->]. lia.
  - intros H. specialize (IH i H). lia.
Qed.
Lemma gsub_gsize g p x : gsub g p = Some x -> gsize x <= gsize g /\ (p <> [] -> gsize x < gsize g).
Proof.
  revert g. induction p as [|i p IH]; intros g; simpl.
  - intros [= ->]. split; [lia|done].
  - destruct (gchildren g !! i) as [c|] eqn:E; [|done]. intros H. apply gsize_child in E. apply IH in H as [H _]. split; [lia|]. lia.
Qed.

(** ** Running *)
Lemma steps_app {S A} (next : iter S A) s l s' l' s'' :
  steps next s l s' -> steps next s' l' s'' -> steps next s (l ++ l') s''.
Proof. induction 1; simpl; intros H'; [done|]. econstructor; eauto. Qed.
Lemma steps_yields {S A} (next : iter S A) s l s' l' : steps next s l s' -> yields next s' l' -> yields next s (l ++ l').
Proof. induction 1; simpl; intros H'; [done|]. econstructor; eauto. Qed.
Lemma yields_ext {S A} (n1 n2 : iter S A) s l : (forall s, n1 s = n2 s) -> yields n1 s l -> yields n2 s l.
Proof.
  intros H. induction 1 as [s s' H1 H2|s a s' l H1 _ IH].
  - eapply yields_nil; rewrite <- H; [exact H1|done].
  - eapply yields_cons; [rewrite <- H; exact H1|done].
Qed.

(** the client loop: after each [Enter] the walk may be told to skip the subtree *)
Definition drive (next : iter preorder (wevent cursor)) (skip : cursor -> bool) : iter preorder (wevent cursor) := fun po =>
  '(o, po') ← next po;
  Ok (o, match o with Some (Enter c) => if skip c then skip_subtree po' else po' | _ => po' end).

(** proof device, no counterpart in the code *)
Definition ev_at (root : green) (p : pos) (e : wevent pos) (e' : wevent cursor) : Prop :=
  match e, e' with
  | Enter q, Enter c | Leave q, Leave c => cursor_at root (p ++ q) = Some c
  | _, _ => False
  end.

Section walk.
Context (root : green) (Hwf : wfg root) (Hco : coherent root).
Context (p0 : pos) (start : cursor) (Hstart : cursor_at root p0 = Some start).
Context (sel : tree -> bool) (succ : cursor -> wevent cursor -> res (option (wevent cursor))).
Context (Henter : forall p c, cursor_at root p = Some c ->
  exists o, is_first_from sel (tchildren (erase (c_green c))) 0 o /\
    succ start (Enter c) = Ok (Some match o ≫= fun i => cursor_at root (p ++ [i]) with Some ch => Enter ch | None => Leave c end)).
Context (Hleave : forall p i c c0, cursor_at root (p ++ [i]) = Some c -> cursor_at root p = Some c0 ->
  c_eqb c start = false ->
  exists o, is_first_from sel (tchildren (erase (c_green c0))) (S i) o /\
    succ start (Leave c) = Ok (Some match o ≫= fun i => cursor_at root (p ++ [i]) with Some ch => Enter ch | None => Leave c0 end)).
Context (Hleave_start : forall c, c_eqb c start = true -> succ start (Leave c) = Ok None).
Context (prune : pos -> bool).
Local Notation drv := (drive (preorder_next_gen succ) (fun c => prune (c_path c))).

Lemma key_below r c : cursor_at root (p0 ++ r) = Some c -> c_eqb c start = true -> r = [].
Proof using Hco Hstart.
  intros Hc [He _]%andb_true_iff. apply Nat.eqb_eq in He.
  apply cursor_at_gsub in Hc. pose proof (cursor_at_gsub _ _ _ Hstart) as Hst.
  rewrite gsub_app, Hst in Hc.
  assert (c_green c = c_green start) as Heq.
  { eapply (Hco (p0 ++ r) p0); [rewrite gsub_app, Hst; done|done|done]. }
  destruct r as [|i r]; [done|]. apply gsub_gsize in Hc as [_ Hlt]. rewrite Heq in Hlt. exfalso. clear -Hlt. assert (i :: r <> []) as Hn by done. specialize (Hlt Hn). lia.
Qed.

(** leaving [c], from the plain state or from one in which a skip was requested *)
Definition ready (s : preorder) (c : cursor) : Prop :=
  po_start s = start /\
  match po_next s with
  | Some (Leave c') => c' = c
  | Some (Enter ch) => c_parent ch = Some c /\ po_skip s = true
  | None => False
  end.
Lemma ready_step s c nx :
  ready s c -> succ start (Leave c) = Ok nx ->
  drv s = Ok (Some (Leave c), PO start nx false).
Proof using Type.
  intros [Hs Hr] Hnx. unfold drive, preorder_next_gen. rewrite Hs.
  destruct s as [st [[ch|c']|] sk]; simpl in *; [|destruct Hr|done].
  - destruct Hr as [Hp ->]. simpl. rewrite Hp. simpl. by rewrite Hnx.
  - destruct sk; simpl; by rewrite Hnx.
Qed.

Lemma walk_steps p c r nx :
  p = p0 ++ r -> cursor_at root p = Some c -> succ start (Leave c) = Ok nx ->
  exists evs, steps drv (PO start (Some (Enter c)) false) evs (PO start nx false) /\
    Forall2 (ev_at root p) (twalk_pruned sel (fun q => prune (p ++ q)) (erase (c_green c))) evs.
Proof using Hco Hstart Henter Hleave Hleave_start.
  remember (c_green c) as g eqn:Hg. revert p c r nx Hg.
  induction g as [g IH] using (induction_ltof1 _ gsize). unfold ltof in IH.
  intros p c r nx -> -> Hc Hnx. set (p := p0 ++ r) in *.
  destruct (Henter p c Hc) as (o&Ho&Hen).
  rewrite twalk_pruned_eq. rewrite app_nil_r. destruct (cursor_at_path _ _ _ Hc) as [Hpath _].
  assert (Hself : cursor_at root (p ++ []) = Some c) by (by rewrite app_nil_r).
  (* emitting Enter c *)
  set (s1 := PO start (Some match o ≫= fun i => cursor_at root (p ++ [i]) with Some ch => Enter ch | None => Leave c end)
               (prune p)).
  assert (Hfirst : drv (PO start (Some (Enter c)) false) = Ok (Some (Enter c), s1)).
  { unfold drive, preorder_next_gen. simpl. rewrite Hen. simpl. rewrite Hpath. unfold s1. by destruct (prune p). }
  assert (Hchild : forall j x, tchildren (erase (c_green c)) !! j = Some x ->
    exists ch, cursor_at root (p ++ [j]) = Some ch /\ erase (c_green ch) = x /\ c_parent ch = Some c /\ gsize (c_green ch) < gsize (c_green c)).
  { intros j x Hx. rewrite lookup_erase_children in Hx. destruct (gchildren (c_green c) !! j) as [ch|] eqn:E; [|done].
    injection Hx as <-. exists (CChild c j (c_offset c + ch.1) ch.2). split_and!; [|done|done|].
    - by eapply cursor_at_child.
    - simpl. by eapply gsize_child. }
  destruct (prune p) eqn:Hprune.
  - (* skipping *)
    exists [Enter c; Leave c]. split; [|by repeat constructor].
    eapply steps_cons; [exact Hfirst|]. eapply steps_cons; [|apply steps_nil].
    apply ready_step; [|done]. split; [done|]. unfold s1. simpl. destruct o as [j|]; simpl; [|done].
    destruct (first_from_child _ _ _ _ Ho) as [x Hx]. destruct (Hchild j x Hx) as (ch&Hch&_&Hpar&_). rewrite Hch. done.
  - (* the children from index [lo] on *)
    assert (Hloop : forall lo o, is_first_from sel (tchildren (erase (c_green c))) lo o ->
      exists evs, steps drv (PO start (Some match o ≫= fun i => cursor_at root (p ++ [i]) with Some ch => Enter ch | None => Leave c end) false)
                    evs (PO start (Some (Leave c)) false) /\
        Forall2 (ev_at root p) (walk_list sel (fun q => prune (p ++ q)) lo (drop lo (tchildren (erase (c_green c))))) evs).
    { clear s1 Hfirst o Ho Hen. intros lo. remember (length (tchildren (erase (c_green c))) - lo) as n eqn:Hn. revert lo Hn.
      induction n as [n IHn] using lt_wf_ind. intros lo Hn o Ho. rewrite (walk_list_first _ _ _ _ _ Ho).
      destruct o as [j|]; simpl; [|exists []; split; [apply steps_nil|constructor]].
      destruct (first_from_child _ _ _ _ Ho) as [x Hx]. rewrite Hx.
      destruct (Hchild j x Hx) as (ch&Hch&<-&Hpar&Hsz). rewrite Hch.
      assert (Hne : c_eqb ch start = false).
      { destruct (c_eqb ch start) eqn:E; [|done]. exfalso. unfold p in Hch. rewrite <- app_assoc in Hch.
        apply key_below in Hch; [|done]. by destruct r. }
      destruct (Hleave p j ch c Hch Hc Hne) as (o'&Ho'&Hlv).
      assert (Hpr : p ++ [j] = p0 ++ (r ++ [j])) by (unfold p; by rewrite app_assoc).
      destruct (IH (c_green ch) Hsz (p ++ [j]) ch (r ++ [j]) _ eq_refl Hpr Hch Hlv) as (evs1&Hs1&Hf1).
      destruct Ho as (Hlo&_&_). apply lookup_lt_Some in Hx.
      destruct (IHn (length (tchildren (erase (c_green c))) - S j) ltac:(lia) (S j) eq_refl o' Ho') as (evs2&Hs2&Hf2).
      exists (evs1 ++ evs2). split; [by eapply steps_app|]. apply Forall2_app; [|done].
      apply Forall2_fmap_l. erewrite twalk_pruned_ext; [eapply Forall2_impl; [exact Hf1|]|].
      - intros [q|q] [c'|c']; simpl; try done; by rewrite <- app_assoc.
      - intros q. simpl. by rewrite <- app_assoc. }
    destruct (Hloop 0 o Ho) as (evs&Hs&Hf). rewrite drop_0 in Hf.
    exists (Enter c :: evs ++ [Leave c]). split.
    + eapply steps_cons; [exact Hfirst|]. unfold s1. eapply steps_app; [exact Hs|].
      eapply steps_cons; [|apply steps_nil]. by apply ready_step.
    + constructor; [done|]. apply Forall2_app; [done|]. by repeat constructor.
Qed.
Lemma walk_yields :
  exists evs, yields drv (preorder_new start) evs /\
    Forall2 (ev_at root p0) (twalk_pruned sel (fun q => prune (p0 ++ q)) (erase (c_green start))) evs.
Proof using Hco Hstart Henter Hleave Hleave_start.
  destruct (walk_steps p0 start [] None) as (evs&Hs&Hf); [by rewrite app_nil_r|done| |].
  { apply Hleave_start. unfold c_eqb. by rewrite Nat.eqb_refl, N.eqb_refl. }
  exists evs. split; [|done]. rewrite <- (app_nil_r evs). eapply steps_yields; [exact Hs|]. by eapply yields_nil.
Qed.
End walk.

Section inst.
Context (root : green) (Hwf : wfg root) (Hco : coherent root).
Context (p0 : pos) (start : cursor) (Hstart : cursor_at root p0 = Some start) (prune : pos -> bool).

Lemma preorder_yields :
  exists evs, yields (drive preorder_next (fun c => prune (c_path c))) (preorder_new start) evs /\
    Forall2 (ev_at root p0) (twalk_pruned is_node (fun q => prune (p0 ++ q)) (erase (c_green start))) evs.
Proof using Hwf Hco Hstart.
  apply walk_yields; [done|done|..].
  - intros p c Hc. destruct (first_child_at root Hwf p c Hc) as (o&Ho&Ha). exists o. split; [done|].
    simpl. by rewrite Ha.
  - intros p i c c0 Hc H0 Hne. destruct (next_sibling_at' root Hwf p i c c0 Hc H0) as (o&Ho&Ha). exists o.
    split; [done|]. simpl. rewrite Hne, Ha. simpl. destruct (sib_shape root p i c c0 Hc H0) as [-> _]. simpl.
    by destruct (o ≫= _).
  - intros c Hc. simpl. by rewrite Hc.
Qed.
Lemma preorder_wt_yields :
  exists evs, yields (drive preorder_wt_next (fun c => prune (c_path c))) (preorder_new start) evs /\
    Forall2 (ev_at root p0) (twalk_pruned any (fun q => prune (p0 ++ q)) (erase (c_green start))) evs.
Proof using Hwf Hco Hstart.
  apply walk_yields; [done|done|..].
  - intros p c Hc. simpl. destruct (c_is_node c) eqn:En.
    + destruct (first_child_or_token_ans root Hwf p c Hc) as (o&Ho&Ha). exists o. split; [done|]. by rewrite Ha.
    + exists None. split; [|done]. unfold c_is_node in En. destruct (c_green c); [done|]. intros i x _ Hi. simpl in Hi; by rewrite lookup_nil in Hi.
  - intros p i c c0 Hc H0 Hne. destruct (next_sibling_or_token_ans root Hwf p c0 H0 i c Hc) as (o&Ho&Ha). exists o.
    split; [done|]. simpl. rewrite Hne, Ha. simpl. destruct (sib_shape root p i c c0 Hc H0) as [-> _]. simpl.
    by destruct (o ≫= _).
  - intros c Hc. simpl. by rewrite Hc.
Qed.
End inst.

Lemma drive_never next s : drive next (fun _ => false) s = next s.
Proof. unfold drive. destruct (next s) as [[[[c|c]|] po]|e]; done. Qed.

Lemma preorder_all root p c :
  wfg root -> coherent root -> cursor_at root p = Some c -> c_is_node c = true ->
  exists evs, yields preorder_next (preorder_new c) evs /\
    Forall2 (ev_at root p) (twalk_nodes (erase (c_green c))) evs.
Proof.
  intros Hwf Hco Hc Hn. destruct (preorder_yields root Hwf Hco p c Hc (fun _ => false)) as (evs&Hy&Hf).
  exists evs. split; [eapply yields_ext; [|exact Hy]; apply drive_never|].
  rewrite twalk_nodes_eq_pruned; [done|]. by rewrite erase_is_node.
Qed.
Lemma preorder_wt_all root p c :
  wfg root -> coherent root -> cursor_at root p = Some c ->
  exists evs, yields preorder_wt_next (preorder_new c) evs /\
    Forall2 (ev_at root p) (twalk (erase (c_green c))) evs.
Proof.
  intros Hwf Hco Hc. destruct (preorder_wt_yields root Hwf Hco p c Hc (fun _ => false)) as (evs&Hy&Hf).
  exists evs. split; [eapply yields_ext; [|exact Hy]; apply drive_never|]. by rewrite twalk_eq_pruned.
Qed.

(** enter events *)
Definition walk_enters (w : list (wevent pos)) : list pos :=
  filter_map (fun e => match e with Enter q => Some q | Leave _ => None end) w.
Lemma Forall2_enters root p w evs :
  Forall2 (ev_at root p) w evs ->
  Forall2 (fun q c => cursor_at root (p ++ q) = Some c) (walk_enters w) (filter_map enter_only evs).
Proof. induction 1 as [|[q|q] [c|c] w evs H _ IH]; simpl in *; try done; by constructor. Qed.
Lemma descendants_at root p c :
  wfg root -> coherent root -> cursor_at root p = Some c -> c_is_node c = true ->
  exists l, descendants c = Ok l /\
    Forall2 (fun q c => cursor_at root (p ++ q) = Some c) (walk_enters (twalk_nodes (erase (c_green c)))) l.
Proof.
  intros Hwf Hco Hc Hn. destruct (preorder_all root p c Hwf Hco Hc Hn) as (evs&Hy&Hf).
  exists (filter_map enter_only evs). split; [|by apply Forall2_enters].
  unfold descendants. erewrite yields_collect; [done|exact Hy|].
  apply Forall2_length in Hf. rewrite <- Hf, twalk_nodes_eq_pruned by (by rewrite erase_is_node).
  pose proof (twalk_pruned_length is_node (fun _ => false) (erase (c_green c))). rewrite gsize_erase. lia.
Qed.
Lemma descendants_with_tokens_at root p c :
  wfg root -> coherent root -> cursor_at root p = Some c ->
  exists l, descendants_with_tokens c = Ok l /\
    Forall2 (fun q c => cursor_at root (p ++ q) = Some c) (positions (erase (c_green c))) l.
Proof.
  intros Hwf Hco Hc. destruct (preorder_wt_all root p c Hwf Hco Hc) as (evs&Hy&Hf).
  exists (filter_map enter_only evs). split.
  - unfold descendants_with_tokens. erewrite yields_collect; [done|exact Hy|].
    apply Forall2_length in Hf. rewrite <- Hf, twalk_eq_pruned.
    pose proof (twalk_pruned_length any (fun _ => false) (erase (c_green c))). rewrite gsize_erase. lia.
  - rewrite <- enter_twalk. by apply Forall2_enters.
Qed.
