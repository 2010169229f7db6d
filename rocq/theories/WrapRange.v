(** * Searching by range in a release build whose text lengths have wrapped

    [child_at_range] of Green.v computes the range of a child as if it always fitted.  Here the
    search is modelled with the panics it can have: [rel_range] makes a [TextRange], and
    [TextRange::new] asserts that the end is not before the start. *)
From Verif Require Export WrapGreenFacts WrapHeap.

(** green/node.rs:267-271 [GreenChild::rel_range]: [TextRange::at(rel_offset, len)] *)
Definition rel_range_x (pr : profile) (c : N * green) : res range :=
  len ← green_text_len c.2; e ← range_end pr c.1 len; Ok (TR c.1 e).
(** std [slice::binary_search_by] with a comparison that may panic, used at green/node.rs:148 *)
Fixpoint bs_loop_x (cmp : nat -> res comparison) (fuel size base : nat) : res nat :=
  match fuel with
  | 0 => Ok base
  | S fuel' =>
      if 1 <? size then
        let half := Nat.div2 size in
        let mid := base + half in
        c ← cmp mid;
        bs_loop_x cmp fuel' (size - half) (match c with Gt => base | _ => mid end)
      else Ok base
  end.
(** std; used at green/node.rs:148 *)
Definition binary_search_by_x (len : nat) (cmp : nat -> res comparison) : res (nat + nat) :=
  if len =? 0 then Ok (inr 0) else
  base ← bs_loop_x cmp len len 0;
  c ← cmp base;
  Ok (match c with
      | Eq => inl base
      | Lt => inr (base + 1)
      | Gt => inr base
      end).
(** green/node.rs:142-156 [child_at_range] *)
Definition child_at_range_x (pr : profile) (slice : list (N * green)) (rel : range) : res (option (nat * (N * green))) :=
  let cmp := fun i => match slice !! i with
                      | Some it => r ← rel_range_x pr it; Ok (range_ordering r rel)
                      | None => Ok Gt (* not probed *)
                      end in
  s ← binary_search_by_x (length slice) cmp;
  let idx := match s with
             | inl it => it
             | inr it => it - 1 (* saturating_sub *)
             end in
  match slice !! idx with
  | Some child => r ← rel_range_x pr child; Ok (if contains_range r rel then Some (idx, child) else None)
  | None => Ok None
  end.

(** cursor.rs:935-940 [child_or_token_at_range] *)
Definition h_at_range_x (pr : profile) (env : henv) (p : id) (r : range) : hm (option id) :=
  offset ← @h_offset pr p;
  rel ← lift (range_sub r offset);
  g ← h_green p;
  _ ← hassert (gis_node g);
  o ← lift (child_at_range_x pr (gchildren g) rel);
  match o with
  | Some ic => q ← h_clone p; c ← @h_mk_child pr env q ic; mret (Some c)
  | None => mret None
  end.
(** one call of a client program: as [hstep] (see Client.v for the lines), but [OAtRange] is cursor.rs:935-940 with the panics of a search by range *)
Definition xstep (pr : profile) (env : henv) (o : op) (hs : hst) : hm (hst * obs) :=
  match o with
  | OAtRange a b s => x ← h_slot (h_handles hs !! s); y ← h_at_range_x pr env x (TR a b); mret (hadd y hs, None)
  | _ => @hstep pr env o hs
  end.
(** a client program (no single place in the code) *)
Fixpoint xrun (pr : profile) (env : henv) (prog : list op) (hs : hst) : hm (hst * list obs) :=
  match prog with
  | [] => mret (hs, [])
  | o :: prog => '(hs1, x) ← xstep pr env o hs; '(hs2, l) ← xrun pr env prog hs1; mret (hs2, x :: l)
  end.
(** a client program that starts with an empty heap (no single place in the code) *)
Definition xclient (pr : profile) (env : henv) (prog : list op) : res (hst * list obs) * heap := xrun pr env prog h_init (HP ∅ [] 0).

(** ** Specification: a search by range may answer with any child, or with none *)

(** specification; no counterpart in the code: what a call does: an operation that knows nothing of lengths, or the choice of child [j]
    (or of no child) of the node of handle [s] *)
Inductive act := AOp (o : op) | AKid (s : nat) (j : option nat).
(** specification of cursor.rs:935-940 up to the choice of the child *)
Definition a_step_ (x : act) (st : sst) : sres (sst * obs) :=
  match x with
  | AOp o => s_step (hide_op o) st
  | AKid s j =>
      h ← of_slot (A:=nat * pos) (s_handles st !! s);
      '(_, x) ← s_elem st h;
      _ ← ill_unless (is_node x);
      _ ← panic_unless (match j with Some i => i <? length (tchildren x) | None => true end);
      SOk (add_handle ((fun i => (h.1, h.2 ++ [i])) <$> j) st, None)
  end.
(** specification of a client program *)
Fixpoint a_run_ (l : list act) (st : sst) : sres (sst * list obs) :=
  match l with
  | [] => SOk (st, [])
  | x :: l => '(st1, o) ← a_step_ x st; '(st2, os) ← a_run_ l st1; SOk (st2, o :: os)
  end.
(** specification; no counterpart in the code: [x] is a way for [o] to go *)
Definition resolves (o : op) (x : act) : Prop :=
  match o with OAtRange _ _ s => exists j, x = AKid s j | _ => x = AOp o end.

(** ** Below 2^32 bytes the search is the one of Green.v *)
Lemma rel_range_fits pr c : wfg c.2 -> (c.1 + glen c.2 <= u32_max)%N -> rel_range_x pr c = Ok (rel_range c).
Proof.
  intros Hw Hb. unfold rel_range_x, rel_range, range_at.
  assert (green_text_len c.2 = Ok (glen c.2)) as -> by (by rewrite (wfg_glen _ Hw); apply wfg_text_len). cbn [mbind res_bind].
  destruct pr; unfold range_end, add32; rewrite (proj2 (N.leb_le _ _) Hb); cbn [mbind res_bind]; [done|].
  rewrite (proj2 (N.leb_le c.1 (c.1 + glen c.2)%N)) by lia. done.
Qed.
Lemma bs_loop_x_ok cmp cmp' fuel : (forall i, cmp' i = Ok (cmp i)) -> forall size base, bs_loop_x cmp' fuel size base = Ok (bs_loop cmp fuel size base).
Proof.
  intros Hc. induction fuel as [|fuel IH]; intros size base; [done|]. cbn [bs_loop_x bs_loop]. destruct (1 <? size); [|done]. rewrite Hc. cbn [mbind res_bind]. by rewrite IH.
Qed.
Lemma bsearch_x_ok cmp cmp' n : (forall i, cmp' i = Ok (cmp i)) -> binary_search_by_x n cmp' = Ok (binary_search_by n cmp).
Proof.
  intros Hc. unfold binary_search_by_x, binary_search_by. destruct (n =? 0); [done|]. rewrite (bs_loop_x_ok cmp) by done. cbn [mbind res_bind]. rewrite Hc. cbn [mbind res_bind]. by destruct (cmp _).
Qed.

(** ** A search never goes wrong but by a panic *)
(** proof device, no counterpart in the code *)
Definition tame {A} (r : res A) : Prop := match r with Err UB | Err Diverge => False | _ => True end.
Lemma tame_bind {A B} (r : res A) (f : A -> res B) : tame r -> (forall a, tame (f a)) -> tame (r ≫= f).
Proof. destruct r as [a|e]; cbn [mbind res_bind]; [intros _ H; apply H|done]. Qed.
Lemma tame_range pr c : tame (rel_range_x pr c).
Proof.
  unfold rel_range_x. apply tame_bind; [unfold green_text_len; destruct c.2; [done|]; by case_match|].
  intros len. apply tame_bind; [|done]. unfold range_end, add32, rassert. destruct pr; repeat case_match; cbn; try done; by repeat case_match.
Qed.
Lemma tame_bs cmp fuel : (forall i, tame (cmp i)) -> forall size base, tame (bs_loop_x cmp fuel size base).
Proof. intros Hc. induction fuel as [|fuel IH]; intros size base; [done|]. cbn [bs_loop_x]. destruct (1 <? size); [|done]. apply tame_bind; [done|]. intros a. apply IH. Qed.
Lemma tame_search pr slice rel : tame (child_at_range_x pr slice rel).
Proof.
  assert (Hc : forall i, tame (match slice !! i with Some it => r ← rel_range_x pr it; Ok (range_ordering r rel) | None => Ok Gt end)).
  { intros i. destruct (slice !! i); [|done]. apply tame_bind; [apply tame_range|done]. }
  unfold child_at_range_x. apply tame_bind.
  - unfold binary_search_by_x. destruct (length slice =? 0); [done|]. apply tame_bind; [by apply tame_bs|]. intros b. apply tame_bind; [apply Hc|done].
  - intros s. destruct (slice !! _); [|done]. apply tame_bind; [apply tame_range|done].
Qed.
Lemma search_valid pr slice rel i c : child_at_range_x pr slice rel = Ok (Some (i, c)) -> slice !! i = Some c.
Proof.
  unfold child_at_range_x. destruct (binary_search_by_x _ _) as [s|]; [|done]. cbn [mbind res_bind]. set (idx := match s with inl it => it | inr it => it - 1 end).
  destruct (slice !! idx) as [ch|] eqn:E; [|done]. destruct (rel_range_x pr ch) as [r|]; [|done]. cbn [mbind res_bind]. destruct (contains_range r rel); [|done].
  intros [= <- <-]. done.
Qed.

Lemma search_fits pr g rel : wfg g -> child_at_range_x pr (gchildren g) rel = Ok (option_map (fun x => (x.1.1, (x.1.2, x.2))) (child_at_range g rel)).
Proof.
  intros Hw. assert (Hc : forall i c, gchildren g !! i = Some c -> rel_range_x pr c = Ok (rel_range c)).
  { intros i c Hi. destruct (wfg_child _ _ _ Hw Hi) as [H1 H2]. apply rel_range_fits; [done|]. pose proof (wfg_bound _ Hw) as Hb.
    pose proof (cstart_S _ _ _ Hi) as HS. rewrite wfg_glen by done. pose proof (cstart_mono g (S i) (length (gchildren g)) (lookup_lt_Some _ _ _ Hi)) as Hl.
    assert (Hn : gis_node g = true) by (by destruct g). rewrite (cstart_end _ Hn) in Hl. rewrite H2. unfold cstart in *. lia. }
  unfold child_at_range_x, child_at_range. erewrite bsearch_x_ok.
  2:{ intros i. instantiate (1 := fun i => match gchildren g !! i with Some it => range_ordering (rel_range it) rel | None => Gt end). cbv beta.
      destruct (gchildren g !! i) as [c|] eqn:E; [|done]. by rewrite (Hc _ _ E). }
  cbn [mbind res_bind]. destruct (gchildren g !! _) as [c|] eqn:E; [|done]. rewrite (Hc _ _ E). cbn [mbind res_bind]. destruct c. by destruct (contains_range _ _).
Qed.

(** ** One call *)
Lemma offset_ro pr x h : (@h_offset pr x h).2 = h.
Proof.
  assert (Hl : forall fuel x o h, (@h_offset_mut_loop pr fuel x o h).2 = h).
  { clear. induction fuel as [|fuel IH]; intros x o h; [done|]. cbn [h_offset_mut_loop]. unfold mbind, hm_bind, h_get. destruct (hn h !! x) as [n|]; [|done].
    destruct (n_par n) as [q|]; [|done]. unfold h_green. destruct (hn h !! q) as [nq|]; [|done]. destruct (g_live h (n_grn nq)); [|done].
    unfold hassert, lift. destruct (gis_node (n_grn nq)); [|done]. cbn [rassert]. destruct (gchildren (n_grn nq) !! n_idx n) as [c|]; [|done]. cbn [unwrap].
    destruct (add32 pr o c.1); [apply IH|done]. }
  unfold h_offset, mbind, hm_bind, h_get. destruct (hn h !! x) as [n|]; [|done]. destruct (n_mut n); [|done]. apply Hl.
Qed.
(** proof device: the accessor that takes child [i] *)
Definition selj (i : nat) (cs : list (N * green)) : option (nat * (N * green)) := (fun c => (i, c)) <$> cs !! i.
Lemma at_range_child pr env x g r h h' o : @h_offset pr x h = (Ok o, h') -> h_green x h = (Ok g, h) -> gis_node g = true ->
  h_at_range_x pr env x r h = match range_sub r o with
    | Ok rel => match child_at_range_x pr (gchildren g) rel with
                | Ok (Some (i, _)) => @h_child_opt pr env (selj i) x h
                | Ok None => (Ok None, h)
                | Err e => (Err e, h)
                end
    | Err e => (Err e, h)
    end.
Proof.
  intros Ho Hg Hn. pose proof (offset_ro pr x h) as Hro. rewrite Ho in Hro. cbn [snd] in Hro. subst h'. unfold h_at_range_x. unfold mbind at 1, hm_bind. rewrite Ho.
  unfold mbind at 1, hm_bind, lift at 1. destruct (range_sub r o) as [rel|e]; [|done]. unfold mbind at 1, hm_bind. rewrite Hg.
  unfold mbind at 1, hm_bind, hassert at 1. rewrite Hn. unfold lift at 1, rassert. unfold mbind at 1, hm_bind, lift at 1.
  destruct (child_at_range_x pr (gchildren g) rel) as [[[i c]|]|e] eqn:Es; [|done|done].
  apply search_valid in Es. unfold h_child_opt. unfold mbind at 3, hm_bind. rewrite Hg. unfold mbind at 3, hm_bind, hassert. rewrite Hn. unfold lift, rassert. unfold selj. rewrite Es. done.
Qed.

Section xwrapped.
Context (env : henv) (Henv : henv_ok env).

Lemma x_node s st hs h hh m t x : simulates st (bhs hs) (bh h) ->
  s_handles st !! s = Some (Some hh) -> s_trees st !! hh.1 = Some (m, t) -> tsub t hh.2 = Some x ->
  exists z n o, h_handles hs !! s = Some (Some z) /\ hn h !! z = Some n /\ x = hide (erase (n_grn n)) /\ h_green z h = (Ok (n_grn n), h) /\ @h_offset W z h = (Ok o, h).
Proof using Type.
  intros (zs&lk&Hsim) Hh Ht Hx. pose proof (sm_sim _ _ _ _ _ _ Hsim) as HS. cbn [app] in HS.
  destruct (sim_slot _ _ _ _ _ _ _ _ Hsim Hh) as (z&Hz&->&Hzh&Hin). cbn [bhs h_handles] in Hzh. cbn [app] in Hin.
  destruct (simH_alive _ _ _ _ _ HS Hin) as (r&m'&cz&Hl&HT'&Hcz&Hm&Hsub). rewrite Ht in HT'. injection HT' as <- ->.
  pose proof HS as [Hi HZ]. pose proof Hi as (K&R&Hs&Ho&_). destruct (inv_loc_tree _ _ _ _ _ _ Hi Hl) as (cur&cz'&Hc&Hcz'&Hg&Hw&Hv).
  assert (cz' = cz) as -> by congruence.
  pose proof (bare_core h z.1 cz Hcz) as (n&Hn&->). pose proof (bare_green h K R _ Hs Ho z.1 n Hn) as Hgr.
  cbn [core_of bn o_grn n_grn] in Hsub. rewrite erase_bare in Hsub. rewrite Hx in Hsub. injection Hsub as Ek.
  assert (Hoff : exists o, @h_offset W z.1 h = (Ok o, h)).
  { pose proof (e_offset z.1 h) as He. assert (Hd : wp (@h_offset Checked z.1) (fun _ _ => True) (bh h)) by (eapply wp_offset; [done|done|exact Hv|done]).
    apply wp_ok in Hd as (o'&h''&Ed&_). pose proof (a_offset z.1 (bh h)) as Ha. rewrite Ed in Ha. destruct Ha as [Ha|Ha]; [|discriminate Ha].
    rewrite Ha in He. pose proof (offset_ro W z.1 h) as Hro. destruct (@h_offset W z.1 h) as [[o|e] h1]; cbn [snd] in Hro; subst h1; [by exists o|discriminate He]. }
  destruct Hoff as (o&Hoff). by exists z.1, n, o.
Qed.
Lemma x_at_range a b s st hs h hh m t k cs : simulates st (bhs hs) (bh h) ->
  s_handles st !! s = Some (Some hh) -> s_trees st !! hh.1 = Some (m, t) -> tsub t hh.2 = Some (Node k cs) ->
  match xstep W env (OAtRange a b s) hs h with
  | (Ok (hs', x), h') => x = None /\ exists j, (forall i, j = Some i -> i < length cs) /\
      simulates (add_handle ((fun i => (hh.1, hh.2 ++ [i])) <$> j) st) (bhs hs') (bh h')
  | (Err Panic, _) => True
  | (Err _, _) => False
  end.
Proof using Henv.
  intros (zs&lk&Hsim) Hh Ht Hx. pose proof (sm_sim _ _ _ _ _ _ Hsim) as HS. cbn [app] in HS.
  destruct (sim_slot _ _ _ _ _ _ _ _ Hsim Hh) as (z&Hz&->&Hzh&Hin). cbn [bhs h_handles] in Hzh. cbn [app] in Hin.
  destruct (x_node s st hs h z.2 m t (Node k cs) (ex_intro _ zs (ex_intro _ lk Hsim)) Hh Ht Hx) as (z'&n&o&Hz'&Hn&Ek&Hgr&Hoff).
  rewrite Hzh in Hz'. injection Hz' as <-.
  assert (Hnode : gis_node (n_grn n) = true). { destruct (n_grn n); [done|]. discriminate Ek. }
  assert (Hlen : length (gchildren (n_grn n)) = length cs). { destruct (n_grn n) as [aa kk tl l|]; [|discriminate Ek]. cbn [erase hide] in Ek. injection Ek as _ ->. by rewrite !map_length. }
  cbn [xstep]. rewrite Hzh. change (h_slot (Some (Some z.1)) ≫= ?f) with (f z.1). cbv beta. unfold mbind at 1, hm_bind.
  rewrite (at_range_child W env z.1 (n_grn n) (TR a b) h h o Hoff Hgr Hnode).
  assert (Hadd : forall (oz : option hpos) h1, (forall z', oz = Some z' -> z'.2.1 = z.2.1) -> simH (bh h1) (s_trees st) (option_list oz ++ somes zs ++ lk) (somes (h_greens (bhs hs))) ->
    simulates (add_handle (snd <$> oz) st) (bhs (hadd (fst <$> oz) hs)) (bh h1)).
  { intros oz h1 Hoz HS1. exists (zs ++ [oz]), lk. apply (sim_add_handle st (bhs hs) zs lk (bh h) (bh h1) oz Hsim); [|done].
    intros z' u Ez' Hu. rewrite (Hoz z' Ez'). eapply (sm_leak_alone _ _ _ _ _ _ Hsim); [by eapply slot_elem|done]. }
  unfold range_sub. destruct (o <=? rstart (TR a b))%N; [|done].
  pose proof (tame_search W (gchildren (n_grn n)) (TR (a - o) (b - o))) as Htame. cbn [rstart rend].
  destruct (child_at_range_x W (gchildren (n_grn n)) (TR (a - o) (b - o))) as [[[i c]|]|e] eqn:Es; [| |by destruct e].
  - apply search_valid in Es. assert (Hilt : i < length cs) by (rewrite <- Hlen; by eapply lookup_lt_Some).
    assert (Hd : wp (@h_child_opt Checked env (selj i) z.1) (fun y h' => exists Zn, got z.2.1 ((fun i => z.2.2 ++ [i]) <$> Some i) y Zn /\ simH h' (s_trees st) (Zn ++ somes zs ++ lk) (somes (h_greens (bhs hs)))) (bh h)).
    { eapply (sim_down env Henv (selj i) (fun _ => Some i) (bh h) _ _ _ z m _ k cs); [exact HS|done|done|done|]. intros g Hwg Eg. unfold sel_ok, selj.
      assert (Hlg : i < length (gchildren g)). { destruct g as [ga gk gt gl|]; [|discriminate Eg]. cbn [erase] in Eg. injection Eg as _ El. simpl. rewrite <- El, map_length in Hilt. done. }
      destruct (lookup_lt_is_Some_2 _ _ Hlg) as [cc Ec]. rewrite Ec. split; [|done]. intros i' c' [= <- <-]. done. }
    apply wp_ok in Hd as (y&h2&Ed&Zn&Hgot&HS2). pose proof (a_child_opt env (selj i) z.1 (bh h)) as Ha. rewrite Ed in Ha. destruct Ha as [Ha|Ha]; [|discriminate Ha].
    assert (Hsel : forall l, selj i (map bc l) = option_map bic (selj i l)). { intros l. unfold selj. rewrite lookup_map. by destruct (l !! i). }
    pose proof (e_child_opt env (selj i) (selj i) z.1 Hsel h) as He. rewrite Ha in He.
    destruct (@h_child_opt W env (selj i) z.1 h) as [[y1|e] h1]; [|discriminate He]. injection He as <- ->.
    split; [done|]. exists (Some i). split; [by intros ? [= <-]|]. destruct y as [y|]; [|done]. cbn [got fmap option_fmap option_map] in Hgot. subst Zn.
    apply (Hadd (Some (y, (z.2.1, z.2.2 ++ [i])))); [by intros z' [= <-]|done].
  - split; [done|]. exists None. split; [done|]. by apply (Hadd None).
Qed.
(** specification; no counterpart in the code: the call is one the compiler or [unwrap] would not let pass: a variable is empty or of the wrong type *)
Definition ill_call (o : op) (st : sst) : Prop := forall x, resolves o x -> a_step_ x st = SIll.
(** specification; no counterpart in the code: the calls that may panic (cursor.rs:364-369 [text_range] and 935-940 always may) *)
Definition may_panic (o : op) (st : sst) : Prop :=
  match o with
  | OLook _ | OAtRange _ _ _ => True
  | _ => s_step (hide_op o) st = SPanic \/ s_step (hide_op o) st = SStuck
  end.
Lemma x_step_one o st hs h : mute st -> simulates st (bhs hs) (bh h) ->
  ill_call o st \/
  match xstep W env o hs h with
  | (Ok (hs', x), h') => exists ac st', resolves o ac /\ a_step_ ac st = SOk (st', option_map hide_look x) /\ simulates st' (bhs hs') (bh h') /\ mute st'
  | (Err Panic, _) => may_panic o st
  | (Err Diverge, _) => s_step (hide_op o) st = SStuck
  | (Err UB, _) => False
  end.
Proof using Henv.
  intros Hm Hs. assert (Hd : no_range o \/ ~ no_range o) by (destruct o; cbn [no_range]; tauto). destruct Hd as [Hr|Hr].
  - assert (Hx : xstep W env o hs = @hstep W env o hs) by (by destruct o). rewrite Hx.
    assert (Hres : forall x, resolves o x -> x = AOp o) by (intros x Ho; by destruct o).
    assert (Hres' : resolves o (AOp o)) by (by destruct o).
    assert (Hdi : s_step (hide_op o) st = SIll \/ s_step (hide_op o) st <> SIll) by (destruct (s_step (hide_op o) st); by auto). destruct Hdi as [Hi|Hi]; [left; by intros x ->%Hres|]. right.
    pose proof (r_step env Henv o st hs h Hr Hm Hs Hi) as H. destruct (@hstep W env o hs h) as [[[hs' x]|[]] h']; [| |done|done].
    + destruct H as (st'&H). by exists (AOp o), st'.
    + destruct H as [H|[H|(s&->)]]; [| |done]; destruct o; try done; cbn [may_panic]; auto.
  - destruct o; try by destruct Hr.
    destruct (s_handles st !! s) as [[hh|]|] eqn:Eh; [|left; intros x [j ->]; cbn [a_step_]; by rewrite Eh|left; intros x [j ->]; cbn [a_step_]; by rewrite Eh].
    destruct (s_trees st !! hh.1) as [[m t]|] eqn:Et; [|left; intros x [j ->]; cbn [a_step_]; rewrite Eh; cbn [of_slot mbind sres_bind]; unfold s_elem; by rewrite Et].
    destruct (tsub t hh.2) as [[k cs|k tx]|] eqn:Ex.
    + right. pose proof (x_at_range a b s st hs h hh m t k cs Hs Eh Et Ex) as H. destruct (xstep W env (OAtRange a b s) hs h) as [[[hs' x]|[]] h']; [|done|done|done].
      destruct H as (->&j&Hj&Hs'). exists (AKid s j). eexists. split; [by exists j|]. split; [|split; [exact Hs'|]].
      * cbn [a_step_]. rewrite Eh. cbn [of_slot mbind sres_bind]. unfold s_elem. rewrite Et, Ex. cbn [mbind sres_bind is_node ill_unless tchildren].
        assert ((match j with Some i => i <? length cs | None => true end) = true) as ->; [|done]. destruct j as [i|]; [|done]. by apply Nat.ltb_lt, Hj.
      * destruct Hm as [H1 H2]. by split.
    + left. intros x [j ->]. cbn [a_step_]. rewrite Eh. cbn [of_slot mbind sres_bind]. unfold s_elem. by rewrite Et, Ex.
    + left. intros x [j ->]. cbn [a_step_]. rewrite Eh. cbn [of_slot mbind sres_bind]. unfold s_elem. by rewrite Et, Ex.
Qed.
Lemma x_run_one prog : forall st hs h, mute st -> simulates st (bhs hs) (bh h) ->
  exists pre post acts st1 hs1 os1 h1, prog = pre ++ post /\ Forall2 resolves pre acts /\
    a_run_ acts st = SOk (st1, map (option_map hide_look) os1) /\ xrun W env pre hs h = (Ok (hs1, os1), h1) /\ simulates st1 (bhs hs1) (bh h1) /\
    (post = [] \/ exists o rest, post = o :: rest /\
       (ill_call o st1 \/ (may_panic o st1 /\ (xrun W env prog hs h).1 = Err Panic) \/ (s_step (hide_op o) st1 = SStuck /\ (xrun W env prog hs h).1 = Err Diverge))).
Proof using Henv.
  induction prog as [|o prog IH]; intros st hs h Hm Hs.
  - exists [], [], [], st, hs, [], h. split_and!; try done. by left.
  - destruct (x_step_one o st hs h Hm Hs) as [Hi|H].
    { exists [], (o :: prog), [], st, hs, [], h. split_and!; try done. right. exists o, prog. split; [done|]. by left. }
    destruct (xstep W env o hs h) as [[[hs1 x]|e] h1] eqn:Eo.
    + destruct H as (ac&st1&Hres&Ea&Hs1&Hm1). destruct (IH st1 hs1 h1 Hm1 Hs1) as (pre&post&acts&st2&hs2&os2&h2&->&HF&Er&Ex&Hs2&Hp).
      assert (Hrun : forall l, xrun W env (o :: l) hs h = (let (r, h') := xrun W env l hs1 h1 in (match r with Ok (hs2, os) => Ok (hs2, x :: os) | Err e => Err e end, h'))).
      { intros l. cbn [xrun]. unfold mbind at 1, hm_bind. rewrite Eo. unfold mbind at 1, hm_bind. by destruct (xrun W env l hs1 h1) as [[[]|] ]. }
      exists (o :: pre), post, (ac :: acts), st2, hs2, (x :: os2), h2. split_and!; [done|by constructor| | |done|].
      * cbn [a_run_]. rewrite Ea. cbn [mbind sres_bind]. rewrite Er. done.
      * rewrite Hrun, Ex. done.
      * destruct Hp as [->|(o'&rest&->&Hp)]; [by left|]. right. exists o', rest. split; [done|]. rewrite Hrun. cbn [app] in Hp |- *.
        destruct Hp as [Hp|[[Hp1 Hp2]|[Hp1 Hp2]]]; [by left|right; left|right; right]; (split; [done|]);
          destruct (xrun W env (pre ++ o' :: rest) hs1 h1) as [r h']; cbn [fst] in Hp2; by subst r.
    + exists [], (o :: prog), [], st, hs, [], h. split_and!; try done. right. exists o, prog. split; [done|]. right.
      assert (Hrun : (xrun W env (o :: prog) hs h).1 = Err e). { cbn [xrun]. unfold mbind at 1, hm_bind. by rewrite Eo. }
      destruct e; [by left|done|by right].
Qed.
Lemma x_client_one prog :
  exists pre post acts st1 hs1 os1 h1, prog = pre ++ post /\ Forall2 resolves pre acts /\
    a_run_ acts s_init = SOk (st1, map (option_map hide_look) os1) /\ xclient W env pre = (Ok (hs1, os1), h1) /\ simulates st1 (bhs hs1) (bh h1) /\
    (post = [] \/ exists o rest, post = o :: rest /\
       (ill_call o st1 \/ (may_panic o st1 /\ (xclient W env prog).1 = Err Panic) \/ (s_step (hide_op o) st1 = SStuck /\ (xclient W env prog).1 = Err Diverge))).
Proof using Henv.
  apply x_run_one; [exact mute_init|]. assert (bh (HP ∅ [] 0) = HP ∅ [] 0) as -> by (unfold bh; simpl; by rewrite fmap_empty). apply simulates_init.
Qed.

(** ** Where no length has wrapped, the search is the one of Heap.v, in both builds *)
Lemma hb_cong {A B} (m : hm A) (f g : A -> hm B) h : (forall a h', m h = (Ok a, h') -> f a h' = g a h') -> (m ≫= f) h = (m ≫= g) h.
Proof using Type. intros H. unfold mbind, hm_bind. destruct (m h) as [[a|e] h']; [by apply H|done]. Qed.
Lemma x_step_same pr o st hs h : simulates st hs h -> s_step o st <> SIll -> xstep pr env o hs h = @hstep pr env o hs h.
Proof using Type.
  intros (zs&lk&Hsim) Hi. destruct o; try done.
  pose proof (sm_sim _ _ _ _ _ _ Hsim) as HS. cbn [app] in HS. cbn [s_step] in Hi.
  destruct (s_handles st !! s) as [[hh|]|] eqn:Hh; [|by destruct Hi|by destruct Hi].
  destruct (sim_slot _ _ _ _ _ _ _ _ Hsim Hh) as (z&Hz&->&Hzh&Hin). cbn [app] in Hin.
  destruct (simH_alive _ _ _ _ _ HS Hin) as (r&m'&cz&Hl&HT'&Hcz&Hm&Hsub).
  pose proof HS as [Hinv HZ]. pose proof Hinv as (K&R&Hs&Ho&_).
  assert (Hwg : wfg (o_grn cz)) by (by eapply owned_wfg_live, owned_live).
  assert (Hn : exists n, hn h !! z.1 = Some n /\ cz = core_of n). { rewrite P_pc in Hcz. destruct (hn h !! z.1) as [n|]; [|done]. injection Hcz as <-. by exists n. }
  destruct Hn as (n&Hn&->). cbn [core_of o_grn] in Hwg.
  assert (Hgr : h_green z.1 h = (Ok (n_grn n), h)).
  { unfold h_green. rewrite Hn. assert (g_live h (n_grn n) = true) as ->; [|done]. unfold g_live. apply bool_decide_eq_true_2.
    apply live_addr. change (ow h) with (po (P h)). eapply (owned_live _ _ _ _ _ z.1 (core_of n)); [exact Hs|exact Ho|]. rewrite P_pc. by rewrite Hn. }
  cbn [xstep hstep]. apply hb_cong. intros x h0 Ex. rewrite Hzh in Ex. injection Ex as <- <-.
  assert (h_at_range_x pr env z.1 (TR a b) h = @h_child_or_token_at_range pr env z.1 (TR a b) h) as Ee; [|unfold mbind, hm_bind; by rewrite Ee].
  unfold h_at_range_x, h_child_or_token_at_range, h_child_opt. apply hb_cong. intros o h1 Eo. pose proof (offset_ro pr z.1 h) as Hro. rewrite Eo in Hro. cbn [snd] in Hro. subst h1.
  apply hb_cong. intros rel h1 Er. assert (h1 = h) as -> by (unfold lift in Er; destruct (range_sub (TR a b) o); congruence).
  apply hb_cong. intros g h1 Eg. rewrite Hgr in Eg. injection Eg as <- <-.
  apply hb_cong. intros [] h1 Ea. unfold mbind at 1, hm_bind, lift at 1. rewrite (search_fits pr (n_grn n) rel Hwg).
  assert (child_at_range (GNode 0 0 0 (gchildren (n_grn n))) rel = child_at_range (n_grn n) rel) as -> by done.
  by destruct (child_at_range (n_grn n) rel) as [[[i ro] g]|].
Qed.
Lemma x_run_same prog : forall st hs h, simulates st hs h -> s_run prog st <> SIll -> xrun Checked env prog hs h = @hrun Checked env prog hs h.
Proof using Henv.
  induction prog as [|o prog IH]; intros st hs h Hs Hi; [done|]. cbn [xrun hrun s_run] in *.
  assert (Hi1 : s_step o st <> SIll) by (intros E; by rewrite E in Hi).
  assert (Hx : xstep Checked env o hs h = @hstep Checked env o hs h) by (by eapply x_step_same).
  pose proof (sim_step env Henv o st hs h Hs) as Hd. unfold meets in Hd. unfold mbind, hm_bind. rewrite Hx. destruct (s_step o st) as [[st1 x1]| | |] eqn:Es; [| | |done].
  - apply wp_ok in Hd as ([hs1 x]&h1&E&Ex&Hs1). rewrite E. cbn [fst snd] in *. cbn [mbind sres_bind] in Hi. rewrite (IH st1 hs1 h1 Hs1); [done|].
    intros E2. by rewrite E2 in Hi.
  - destruct (@hstep Checked env o hs h) as [[[]|] ?]; [discriminate Hd|done].
  - destruct (@hstep Checked env o hs h) as [[[]|] ?]; [|done]. destruct Hd as [Hd|Hd]; discriminate Hd.
Qed.
Lemma x_run_same_rel prog : forall st hs h st' os, simulates st hs h -> s_run prog st = SOk (st', os) -> xrun W env prog hs h = @hrun Checked env prog hs h.
Proof using Henv.
  induction prog as [|o prog IH]; intros st hs h st' os Hs E; [done|]. cbn [xrun hrun s_run] in *.
  apply sok_bind in E as ([st1 x1]&Es&E). apply sok_bind in E as ([st2 l2]&E2&_).
  assert (Hx : xstep W env o hs h = @hstep W env o hs h) by (eapply x_step_same; [exact Hs|by rewrite Es]).
  pose proof (sim_step env Henv o st hs h Hs) as Hd. rewrite Es in Hd. cbn [meets] in Hd. apply wp_ok in Hd as ([hs1 x]&h1&Ec&Ex&Hs1).
  pose proof (a_step env o hs h) as Ha. rewrite Ec in Ha. destruct Ha as [Ha|Ha]; [|discriminate Ha]. unfold mbind, hm_bind. rewrite Hx, Ha, Ec. cbn [fst snd] in *.
  by rewrite (IH st1 hs1 h1 _ _ Hs1 E2).
Qed.
End xwrapped.
Lemma ill_later pre acts st0 st l o rest : Forall2 resolves pre acts -> a_run_ acts st0 = SOk (st, l) -> ill_call o st ->
  exists acts', Forall2 resolves (pre ++ o :: rest) acts' /\ a_run_ acts' st0 = SIll.
Proof.
  intros HF Ea Hc. assert (Hx : forall o, exists x, resolves o x) by (intros []; eexists; try done; by exists None).
  assert (Hr : exists l, Forall2 resolves rest l). { clear -Hx. induction rest as [|o' rest [l IH]]; [by exists []|]. destruct (Hx o') as [x Hx']. exists (x :: l). by constructor. }
  destruct Hr as [l' Hl]. destruct (Hx o) as [x Ho]. exists (acts ++ x :: l'). split; [apply Forall2_app; [done|by constructor]|].
  clear -Ea Hc Ho. revert st0 l Ea. induction acts as [|y acts IH]; intros st0 l0; cbn [app a_run_].
  - intros [= -> <-]. by rewrite (Hc x Ho).
  - destruct (a_step_ y st0) as [[st1 o1]| | |]; cbn [mbind sres_bind]; [|done|done|done]. destruct (a_run_ acts st1) as [[st2 os2]| | |] eqn:E; cbn [mbind sres_bind]; [|done|done|done].
    intros [= -> <-]. by rewrite (IH _ _ E).
Qed.
Lemma x_run_no_range pr env prog : Forall no_range prog -> forall hs h, xrun pr env prog hs h = @hrun pr env prog hs h.
Proof.
  induction 1 as [|o prog Ho _ IH]; intros hs h; [done|]. cbn [xrun hrun]. assert (xstep pr env o hs = @hstep pr env o hs) as -> by (by destruct o).
  apply hb_cong. intros [hs1 x] h1 _. unfold mbind, hm_bind. by rewrite IH.
Qed.
Lemma x_run_app pr env p q hs h : xrun pr env (p ++ q) hs h =
  (let (r, h1) := xrun pr env p hs h in match r with Ok (hs1, l) => (let (r', h2) := xrun pr env q hs1 h1 in (match r' with Ok (hs2, l') => Ok (hs2, l ++ l') | Err e => Err e end, h2)) | Err e => (Err e, h1) end).
Proof.
  revert hs h. induction p as [|o p IH]; intros hs h; cbn [app xrun].
  - unfold mret, hm_ret. by destruct (xrun pr env q hs h) as [[[]|] ?].
  - unfold mbind, hm_bind. destruct (xstep pr env o hs h) as [[[hs1 x]|] h1]; [|done]. rewrite IH. destruct (xrun pr env p hs1 h1) as [[[hs2 l]|] h2]; [|done].
    cbn. by destruct (xrun pr env q hs2 h2) as [[[]|] ?].
Qed.
Lemma a_run_ops l rest st : a_run_ (map AOp l ++ rest) st = ('(st1, x) ← s_run (map hide_op l) st; '(st2, y) ← a_run_ rest st1; SOk (st2, x ++ y)).
Proof.
  revert st. induction l as [|o l IH]; intros st; cbn [map app a_run_ s_run].
  - cbn [mbind sres_bind]. by destruct (a_run_ rest st) as [[]| | |].
  - cbn [a_step_]. destruct (s_step (hide_op o) st) as [[st1 x]| | |]; cbn [mbind sres_bind]; [|done|done|done]. rewrite IH.
    destruct (s_run (map hide_op l) st1) as [[st2 y]| | |]; cbn [mbind sres_bind]; [|done|done|done]. by destruct (a_run_ rest st2) as [[]| | |].
Qed.
Lemma resolves_ops l acts : Forall no_range l -> Forall2 resolves l acts -> acts = map AOp l.
Proof. intros Hr HF. induction HF as [|o x l acts Ho _ IH]; [done|]. apply Forall_cons in Hr as [H1 H2]. cbn [map]. rewrite (IH H2). f_equal. by destruct o. Qed.
Lemma slot_empty {A B C} (f : A -> B) (g : A -> C) (l : list (option A)) s : map (fmap f) l !! s = Some None <-> map (fmap g) l !! s = Some None.
Proof. rewrite (list_lookup_fmap (fmap f)), (list_lookup_fmap (fmap g)). destruct (l !! s) as [[z|]|]; by split. Qed.
(** two halves of 2^31 bytes: the end of the second one is 0 *)
Lemma halves_panic g k t rel : built_rel g -> erase g = Node k [t; t] -> blen (ttext t) = 2147483648%N -> child_at_range_x W (gchildren g) rel = Err Panic.
Proof.
  intros Hg Eg Ht. pose proof (built_rel_wfw g Hg) as Hw. destruct g as [a k' tl cs|]; [|discriminate Eg]. cbn [erase] in Eg.
  destruct cs as [|c0 [|c1 [|]]]; try discriminate Eg. cbn [map] in Eg. injection Eg as _ E0 E1.
  assert (Hc : c1.1 = 2147483648%N /\ green_text_len c1.2 = Ok 2147483648%N).
  { destruct (wfw_lookup _ 1 c1 Hw eq_refl) as [H1 H2]. split.
    - rewrite H2. unfold kids. cbn [gchildren map take snd concat]. unfold gctext. cbn [map concat]. rewrite app_nil_r. unfold gtext. rewrite E0, Ht. reflexivity.
    - rewrite wfw_text_len_fits; [|done|]; unfold gtext; rewrite E1, Ht; [reflexivity|]. intros _. lia. }
  destruct Hc as [H1 H2]. unfold child_at_range_x, binary_search_by_x. cbn [gchildren length Nat.eqb bs_loop_x Nat.ltb Nat.leb Nat.div2 Nat.add lookup list_lookup].
  unfold rel_range_x. rewrite H2, H1. reflexivity.
Qed.
