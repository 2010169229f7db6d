(** * Navigation on the heap: new handles, in-place iteration, copies *)
From Verif Require Export HeapOps.

(** a query answered with an owned handle at position [op] below root [r] *)
Definition at_pos (c : gmap id core) (r : id) (o : option id) (op : option pos) : Prop :=
  match op with Some p => exists y, o = Some y /\ loc c y r p | None => o = None end.
(** proof device, no counterpart in the code *)
Definition olist {A} (o : option A) : list A := match o with Some x => [x] | None => [] end.

Lemma inv_loc_tree h H G x r p : inv h H G -> loc (pc (P h)) x r p ->
  exists cur cx, cursor_at (gr (pc (P h)) r) p = Some cur /\ pc (P h) !! x = Some cx /\ c_green cur = o_grn cx /\
    wfg (gr (pc (P h)) r) /\ view (pc (P h)) x cur.
Proof.
  intros (K&R&Hs&Ho&_) Hl. destruct (loc_gsub _ _ Hs _ _ _ Hl) as (cr&cx&Hr&Hp&Hx&Hg&_).
  assert (gr (pc (P h)) r = o_grn cr) as E by (unfold gr; by rewrite Hr). rewrite E.
  destruct (cursor_at (o_grn cr) p) as [cur|] eqn:Ec; [|apply cursor_at_None in Ec; congruence].
  exists cur, cx. pose proof (cursor_at_gsub _ _ _ Ec). split_and!; [done|done|congruence| |].
  - eapply owned_wfg_live; [done|by eapply owned_live].
  - exists r, p. by rewrite E.
Qed.

Lemma wp_mk_child env q ic r p h H G cq :
  henv_ok env -> inv h (q :: H) G -> loc (pc (P h)) q r p -> pc (P h) !! q = Some cq ->
  gchildren (o_grn cq) !! ic.1 = Some ic.2 ->
  wp (h_mk_child env q ic)
     (fun x h' => inv h' (x :: H) G /\ pc (P h) ⊆ pc (P h') /\ loc (pc (P h')) x r (p ++ [ic.1]) /\
        exists cx, pc (P h') !! x = Some cx /\ o_mut cx = o_mut cq) h.
Proof.
  intros Henv Hi Hl Hq Hch. destruct ic as [i [rel g]]; simpl in *.
  destruct (inv_loc_tree _ _ _ _ _ _ Hi Hl) as (cur&cq'&Hc&Hq'&Hg&Hwf&Hv). assert (cq' = cq) as -> by congruence.
  pose proof Hi as (K&R&Hs&Ho&_&_).
  assert (Hch' : gchildren (c_green cur) !! i = Some (rel, g)) by congruence.
  apply wp_bind. eapply wp_offset; [done|done|exact Hv|].
  apply wp_bind. eapply (wp_lift _ (c_offset cur + rel)%N).
  { pose proof (mk_child_at _ Hwf _ _ _ _ Hc Hch') as Hmk. unfold mk_child in Hmk; simpl in *.
    destruct (add32 Checked (c_offset cur) rel) eqn:E; simpl in Hmk; [|done]. congruence. }
  apply wp_bind. eapply wp_get; [exact Hq|]. intros n En _ _ _ _. assert (n_mut n = o_mut cq) as -> by (by rewrite <- En).
  eapply wp_mono; [eapply (wp_new_child env q i _ g (o_mut cq) rel cq); try done|].
  - intros Hm. by rewrite (view_offset _ _ Hs _ _ _ Hq Hv Hm).
  - intros x h' (Hi'&Hsub&cx&Hx&Hp&Hix&Hgx&Hm). split_and!; [done|done| |eauto].
    rewrite <- Hix. eapply loc_child; [done|exact Hp|]. by apply (same_at_grow _ _ _ Hsub).
Qed.

(** ** The accessors *)
Lemma wp_child_opt env sel x r p h H G cx :
  henv_ok env -> inv h H G -> loc (pc (P h)) x r p -> pc (P h) !! x = Some cx -> gis_node (o_grn cx) = true ->
  valid_sel (gchildren (o_grn cx)) (sel (gchildren (o_grn cx))) ->
  wp (h_child_opt env sel x)
     (fun o h' => inv h' (olist o ++ H) G /\ pc (P h) ⊆ pc (P h') /\
        at_pos (pc (P h')) r o ((fun ic : nat * (N * green) => p ++ [ic.1]) <$> sel (gchildren (o_grn cx)))) h.
Proof.
  intros Henv Hi Hl Hx Hnode Hsel. pose proof Hi as (K&R&Hs&Ho&_&_).
  apply wp_bind. eapply wp_green_of; [exact Hx|by eapply owned_live|]. apply wp_bind, wp_assert; [done|].
  destruct (sel (gchildren (o_grn cx))) as [[i ch]|] eqn:E; [|by apply wp_ret].
  apply wp_bind. eapply wp_mono; [by eapply wp_clone; eauto|]. intros ? h1 (->&Hi1&E1). rewrite <- E1 in Hl, Hx |- *.
  apply wp_bind. eapply wp_mono; [eapply wp_mk_child; try done; by apply Hsel|].
  intros y h2 (Hi2&Hsub&Hly&_). apply wp_ret. split_and!; [done|done|]. simpl. eauto.
Qed.
Lemma wp_sibling_opt_child env sel x r p i q cq h H G :
  henv_ok env -> inv h H G -> loc (pc (P h)) x r (p ++ [i]) -> loc (pc (P h)) q r p -> pc (P h) !! q = Some cq ->
  (exists cx, pc (P h) !! x = Some cx /\ o_par cx = Some q) ->
  valid_sel (gchildren (o_grn cq)) (sel i (gchildren (o_grn cq))) ->
  wp (h_sibling_opt env sel x)
     (fun o h' => inv h' (olist o ++ H) G /\ pc (P h) ⊆ pc (P h') /\
        at_pos (pc (P h')) r o ((fun ic : nat * (N * green) => p ++ [ic.1]) <$> sel i (gchildren (o_grn cq)))) h.
Proof.
  intros Henv Hi Hl Hlq Hq (cx&Hx&Hpx) Hsel. pose proof Hi as (K&R&Hs&Ho&_&_).
  destruct (loc_inv_child _ _ _ _ _ _ Hl Hx Hpx) as (p'&[<- [= Hix]]%app_inj_tail&_).
  apply wp_bind. unfold h_green_siblings. apply wp_bind. eapply wp_get; [exact Hx|]. intros n En _ _ _ _.
  assert (n_par n = Some q) as -> by (by rewrite <- Hpx, <- En).
  apply wp_bind. eapply wp_green_of; [exact Hq|by eapply owned_live|].
  destruct (sh_child _ _ Hs _ _ _ Hx Hpx) as (cq'&rel&Hq'&_&Hch&_). assert (cq' = cq) as -> by congruence.
  apply wp_bind, wp_assert; [by eapply gch_node|]. apply wp_ret.
  apply wp_bind. apply wp_bind. eapply wp_get; [exact Hx|]. intros n' En' _ _ _ _. apply wp_ret.
  assert (n_idx n' = i) as -> by (rewrite Hix, <- En'; done).
  destruct (sel i (gchildren (o_grn cq))) as [[j ch]|] eqn:E; [|by apply wp_ret].
  apply wp_bind. apply wp_bind. eapply wp_get; [exact Hx|]. intros n2 En2 _ _ _ _.
  assert (n_par n2 = Some q) as -> by (by rewrite <- Hpx, <- En2).
  apply wp_bind. eapply wp_get; [exact Hq|]. intros nq Enq _ _ _ _. apply wp_bind, wp_assert; [rewrite <- Enq in Hch; by eapply gch_node|].
  apply wp_bind. eapply wp_mono; [by eapply (wp_inc_handle q); eauto|]. intros [] h1 (Hi1&E1). apply wp_ret.
  rewrite <- E1 in Hlq, Hq |- *.
  apply wp_bind. eapply wp_mono; [eapply wp_mk_child; try done; by apply Hsel|].
  intros y h2 (Hi2&Hsub&Hly&_). apply wp_ret. split_and!; [done|done|]. simpl. eauto.
Qed.
Lemma wp_sibling_opt_root env sel x cx h (Q : option id -> heap -> Prop) :
  pc (P h) !! x = Some cx -> o_par cx = None -> (forall i, sel i [] = None) -> Q None h ->
  wp (h_sibling_opt env sel x) Q h.
Proof.
  intros Hx Hp Hsel HQ. apply wp_bind. apply wp_bind. eapply wp_get; [exact Hx|]. intros n En _ _ _ _.
  assert (n_par n = None) as -> by (by rewrite <- Hp, <- En). apply wp_ret.
  apply wp_bind. apply wp_bind. eapply wp_get; [exact Hx|]. intros n' En' _ _ _ _. apply wp_ret. rewrite Hsel. by apply wp_ret.
Qed.
Lemma wp_parent x r p h H G :
  inv h H G -> loc (pc (P h)) x r p ->
  wp (h_parent x)
     (fun o h' => inv h' (olist o ++ H) G /\ pc (P h') = pc (P h) /\
        at_pos (pc (P h')) r o (match p with [] => None | _ => Some (removelast p) end)) h.
Proof.
  intros Hi Hl. pose proof Hi as (K&R&Hs&Ho&_&_). destruct (loc_alive _ _ _ _ Hl) as [cx Hx].
  apply wp_bind. eapply wp_get; [exact Hx|]. intros n En _ _ _ _. assert (n_par n = o_par cx) as -> by (by rewrite <- En).
  destruct (o_par cx) as [q|] eqn:Hp.
  - destruct (loc_inv_child _ _ _ _ _ _ Hl Hx Hp) as (p'&->&Hlq).
    destruct (sh_child _ _ Hs _ _ _ Hx Hp) as (cq&rel&Hq&_&Hch&_).
    apply wp_bind. eapply wp_get; [exact Hq|]. intros nq Enq _ _ _ _. apply wp_bind, wp_assert; [rewrite <- Enq in Hch; by eapply gch_node|].
    apply wp_bind. eapply wp_mono; [eapply (wp_inc_handle q); [done|by eapply loc_alive]|]. intros [] h1 (Hi1&E1). apply wp_ret.
    split_and!; [done|done|]. rewrite E1. destruct (p' ++ [o_idx cx]) eqn:E; [by destruct p'|]. rewrite <- E, removelast_last. simpl. eauto.
  - destruct (loc_inv_root _ _ _ _ _ Hl Hx Hp) as [-> ->]. by apply wp_ret.
Qed.

(** ** Reading through a handle *)
Lemma wp_kind x h H G cx (Q : kind -> heap -> Prop) :
  inv h H G -> pc (P h) !! x = Some cx -> Q (gkind (o_grn cx)) h -> wp (h_kind x) Q h.
Proof.
  intros (K&R&Hs&Ho&_&_) Hx HQ. apply wp_bind. eapply wp_green_of; [exact Hx|by eapply owned_live|]. by apply wp_ret.
Qed.
Lemma wp_text_range x h H G cur (Q : range -> heap -> Prop) :
  inv h H G -> view (pc (P h)) x cur -> Q (TR (c_offset cur) (c_offset cur + blen (gtext (c_green cur)))) h ->
  wp (h_text_range x) Q h.
Proof.
  intros (K&R&Hs&Ho&_&_) Hv HQ. destruct (view_inv _ _ Hs _ _ Hv) as (cx&Hx&Hg&_).
  destruct (view_tree _ _ _ _ _ _ _ Hs Ho Hv) as (root&p&Hc&Hwf&_).
  pose proof (c_text_range_at _ Hwf _ _ Hc) as Hr. unfold c_text_range in Hr.
  apply wp_bind. eapply wp_offset; [done|done|exact Hv|].
  apply wp_bind. eapply wp_green_of; [exact Hx|by eapply owned_live|]. rewrite <- Hg.
  destruct (green_text_len (c_green cur)) as [len|] eqn:El; simpl in Hr; [|done].
  destruct (add32 Checked (c_offset cur) len) as [e|] eqn:Ee; simpl in Hr; [|done]. injection Hr as He.
  apply wp_bind. eapply wp_lift; [done|]. apply wp_bind. eapply wp_lift; [done|]. apply wp_ret. by rewrite He.
Qed.
Lemma wp_eq x y h H G cx cy (Q : bool -> heap -> Prop) :
  inv h H G -> view (pc (P h)) x cx -> view (pc (P h)) y cy -> Q (c_eqb cx cy) h -> wp (h_eq x y) Q h.
Proof.
  intros (K&R&Hs&Ho&_&_) Hx Hy HQ.
  destruct (view_inv _ _ Hs _ _ Hx) as (ox&Hox&Hgx&_). destruct (view_inv _ _ Hs _ _ Hy) as (oy&Hoy&Hgy&_).
  apply wp_bind. eapply wp_get; [exact Hox|]. intros n En _ _ _ _. apply wp_bind. eapply wp_offset; [done|done|exact Hx|].
  apply wp_bind. eapply wp_get; [exact Hoy|]. intros m Em _ _ _ _. apply wp_bind. eapply wp_offset; [done|done|exact Hy|].
  apply wp_ret. assert (n_grn n = c_green cx) as -> by (rewrite Hgx, <- En; done).
  assert (n_grn m = c_green cy) as -> by (rewrite Hgy, <- Em; done). unfold c_eqb, c_key in HQ. simpl in HQ. done.
Qed.

(** ** In-place iteration *)
(** proof device, no counterpart in the code *)
Definition same_root (c c' : gmap id core) (r : id) : Prop :=
  gr c' r = gr c r /\ (o_mut <$> c' !! r) = (o_mut <$> c !! r).
Lemma same_root_grow c c' x r p : c ⊆ c' -> loc c x r p -> same_root c c' r.
Proof.
  intros Hsub Hl. destruct (loc_root_core _ _ _ _ Hl) as (cr&Hr&_). unfold same_root, gr.
  by rewrite Hr, (lookup_weaken _ _ _ _ Hr Hsub).
Qed.
Lemma same_root_shrink c c' x r p : c' ⊆ c -> loc c' x r p -> same_root c c' r.
Proof.
  intros Hsub Hl. destruct (loc_root_core _ _ _ _ Hl) as (cr&Hr&_). unfold same_root, gr.
  by rewrite Hr, (lookup_weaken _ _ _ _ Hr Hsub).
Qed.
Lemma same_root_trans c1 c2 c3 r : same_root c1 c2 r -> same_root c2 c3 r -> same_root c1 c3 r.
Proof. intros [] []. split; congruence. Qed.

(** giving up a handle does not change what the others show *)
Lemma wp_drop_same x h H G :
  inv h (x :: H) G ->
  wp (h_drop x) (fun _ h' => inv h' H G /\ pc (P h') ⊆ pc (P h) /\ forall y, y ∈ H -> same_at (pc (P h)) (pc (P h')) y) h.
Proof.
  intros Hi. eapply wp_mono; [by eapply wp_drop|]. intros [] h' [Hi' Hsub]. split_and!; [done|done|].
  intros y Hy. pose proof Hi' as (K&R&Hs&_). eapply same_at_shrink; [exact Hs|done|]. by eapply inv_alive.
Qed.

(** changing the contents of a childless immutable node *)
Lemma inv_update h h' H G K R x cx cx' q :
  invK (P h) K R H G None -> pc (P h) !! x = Some cx -> o_par cx = Some q -> o_mut cx = false -> K x = [] ->
  o_par cx' = Some q -> o_mut cx' = false ->
  (exists cq rel, pc (P h) !! q = Some cq /\ gchildren (o_grn cq) !! o_idx cx' = Some (rel, o_grn cx') /\ o_off cx' = (o_off cq + rel)%N) ->
  P h' = set_pc (P h) (<[x:=cx']> (pc (P h))) ->
  invK (P h') K R H G None /\
  (forall y, y <> x -> same_at (pc (P h)) (pc (P h')) y) /\
  (forall r p, loc (pc (P h)) q r p -> loc (pc (P h')) x r (p ++ [o_idx cx']) /\ same_root (pc (P h)) (pc (P h')) r).
Proof.
  intros (Hs&Ho&Hl&Hc) Hx Hp Hm HK Hp' Hm' (cq&rel&Hq&Hch&Hoff) E'. rewrite E'. psimpg.
  assert (Hqx : q <> x). { intros ->. pose proof (sh_gsize _ _ Hs _ _ _ _ Hx Hp Hx). lia. }
  assert (Hnox : forall y cy, pc (P h) !! y = Some cy -> o_par cy <> Some x).
  { intros y cy Hy Hpy. assert (y ∈ K x) as Hin by (apply (sh_K _ _ Hs); eauto). rewrite HK in Hin. by apply elem_of_nil in Hin. }
  destruct (sh_child _ _ Hs _ _ _ Hx Hp) as (cq0&rel0&Hq0&Hmq&_). assert (cq0 = cq) as -> by congruence.
  assert (Hloc : forall y r p, y <> x -> loc (pc (P h)) y r p -> loc (<[x:=cx']> (pc (P h))) y r p).
  { intros y r p Hy Hly. induction Hly as [y cy Hcy Hpy|y cy q' r p Hcy Hpy Hlq' IH].
    - eapply loc_root; [by rewrite lookup_insert_ne|done].
    - eapply loc_child; [by rewrite lookup_insert_ne|done|]. apply IH. intros ->. by eapply Hnox. }
  assert (Hr : forall y r p, loc (pc (P h)) y r p -> r <> x).
  { intros y r p Hly ->. destruct (loc_root_core _ _ _ _ Hly) as (cr&?&?). congruence. }
  split_and!.
  - split_and!; psimpg.
    + constructor.
      * intros y cy q' Hy Hpy. destruct (decide (y = x)) as [->|Hne].
        -- rewrite lookup_insert in Hy. injection Hy as <-. assert (q' = q) as -> by congruence.
           exists cq, rel. rewrite lookup_insert_ne by done. split_and!; try done. congruence.
        -- rewrite lookup_insert_ne in Hy by done. destruct (sh_child _ _ Hs _ _ _ Hy Hpy) as (cq'&rel'&?&?&?&?).
           exists cq', rel'. rewrite lookup_insert_ne; [done|]. intros ->. exact (Hnox _ _ Hy Hpy).
      * intros y cy Hy Hpy Hmy. destruct (decide (y = x)) as [->|Hne]; [rewrite lookup_insert in Hy; congruence|].
        rewrite lookup_insert_ne in Hy by done. exact (sh_root _ _ Hs _ _ Hy Hpy Hmy).
      * intros q' y. rewrite (sh_K _ _ Hs). destruct (decide (y = x)) as [->|Hne].
        -- rewrite lookup_insert, Hx. split; intros (?&[= <-]&?); [exists cx'|exists cx]; (split; [done|congruence]).
        -- by rewrite lookup_insert_ne.
      * apply (sh_nodup _ _ Hs).
      * intros q' cq' Hq' Hm2. destruct (decide (q' = x)) as [->|Hne]; [by rewrite HK; constructor|].
        rewrite lookup_insert_ne in Hq' by done. rewrite (map_ext_in _ (ix (pc (P h)))); [by apply (sh_sorted _ _ Hs _ _ Hq')|].
        intros y Hy. unfold ix. rewrite lookup_insert_ne; [done|]. intros <-. apply (sh_K _ _ Hs) in Hy as (?&?&?). congruence.
    + destruct Ho as [HR HRn HRp HRw HRc].
      assert (HRx : forall y, y ∈ R -> y <> x). { intros y (?&?&?)%HR ->. congruence. }
      constructor; try done.
      * intros y. rewrite HR. destruct (decide (y = x)) as [->|Hne]; [|by rewrite lookup_insert_ne].
        rewrite lookup_insert, Hx. split; intros (?&[= <-]&?); congruence.
      * rewrite HRp. f_equiv. apply reflexive_eq, map_ext_in. intros y Hy%HRx. unfold gr. by rewrite lookup_insert_ne.
    + constructor.
      * intros y cy Hy Hmy. destruct (decide (y = x)) as [->|Hne]; [rewrite lookup_insert in Hy; congruence|].
        rewrite lookup_insert_ne in Hy by done. by apply (lk_mut _ _ _ _ _ Hl _ _ Hy).
      * intros y cy Hy Hmy. destruct (decide (y = x)) as [->|Hne]; [rewrite lookup_insert in Hy; congruence|].
        rewrite lookup_insert_ne in Hy by done. by apply (lk_root _ _ _ _ _ Hl _ _ Hy).
      * intros y cy Hy Hmy. destruct (decide (y = x)) as [->|Hne]; [by apply (lk_imm _ _ _ _ _ Hl _ _ Hx)|].
        rewrite lookup_insert_ne in Hy by done. by apply (lk_imm _ _ _ _ _ Hl _ _ Hy).
    + assert (Hal : forall y, is_Some (<[x:=cx']> (pc (P h)) !! y) <-> is_Some (pc (P h) !! y)).
      { intros y. destruct (decide (y = x)) as [->|Hne]; [rewrite lookup_insert, Hx; split; eauto|by rewrite lookup_insert_ne]. }
      destruct Hc as [H1 H2 H3 H4]. constructor; [intros y; rewrite Hal; auto|intros y; rewrite Hal; auto|done|intros y; rewrite Hal; auto].
  - intros y Hy r p Hly. split_and!; [by apply Hloc| |by rewrite lookup_insert_ne].
    unfold gr. rewrite lookup_insert_ne; [done|]. intros <-. by eapply Hr.
  - intros r p Hlq. split.
    + eapply loc_child; [by rewrite lookup_insert|done|]. by apply Hloc.
    + assert (r <> x) by by eapply Hr. unfold same_root, gr. by rewrite lookup_insert_ne.
Qed.

Section to_next.
Context (env : henv) (ssel : nat -> list (N * green) -> option (nat * (N * green))) (sel : nat * (N * green) -> option (nat * (N * green))) (Pg : green -> bool).
Context (Henv : henv_ok env) (Hss : forall i cs, ssel i cs = find_map sel (drop (i + 1) (enumerate cs))) (Hsel : selects sel Pg).

Lemma ssel_valid i g : valid_sel (gchildren g) (ssel i (gchildren g)).
Proof using Hss Hsel. rewrite Hss. apply (sel_first sel Pg g (i + 1) Hsel). Qed.
Lemma ssel_nil i : ssel i [] = None.
Proof using Hss. rewrite Hss. cbn [enumerate imap]. unfold enumerate. simpl. by rewrite drop_nil. Qed.

(** the node is not a root *)
Lemma wp_to_next_child x r p i q cq h H G :
  inv h (x :: H) G -> loc (pc (P h)) x r (p ++ [i]) -> loc (pc (P h)) q r p -> pc (P h) !! q = Some cq ->
  (exists cx, pc (P h) !! x = Some cx /\ o_par cx = Some q) ->
  wp (h_to_next env (h_sibling_opt env ssel) sel x)
     (fun o h' => inv h' (olist o ++ H) G /\ (forall y, y ∈ H -> same_at (pc (P h)) (pc (P h')) y) /\
        at_pos (pc (P h')) r o ((fun ic : nat * (N * green) => p ++ [ic.1]) <$> ssel i (gchildren (o_grn cq))) /\
        (is_Some o -> same_root (pc (P h)) (pc (P h')) r)) h.
Proof using Henv Hss Hsel.
  intros Hi Hl Hlq Hq (cx&Hx&Hpx). pose proof Hi as (K&R&HiK). pose proof HiK as (Hs&Ho&Hlk&Hc).
  destruct (loc_inv_child _ _ _ _ _ _ Hl Hx Hpx) as (p'&[<- [= Hix]]%app_inj_tail&_).
  unfold h_to_next. apply wp_bind. unfold h_can_take_ptr. apply wp_bind. eapply wp_get; [exact Hx|]. intros n En Hrc _ _ _. apply wp_ret.
  assert (n_mut n = o_mut cx) as -> by (by rewrite <- En).
  destruct ((n_rc n =? 1) && negb (o_mut cx)) eqn:Hcan; simpl.
  - (* in place *)
    apply andb_true_iff in Hcan as [Hr1%Nat.eqb_eq Hm%negb_true_iff].
    rewrite (ct_rc _ _ _ _ _ Hc x ltac:(eauto)), Hr1, cnt_cons, bool_decide_eq_true_2 in Hrc by done. injection Hrc as Hrc.
    assert (HKx : K x = []) by (destruct (K x); [done|simpl in Hrc; lia]).
    assert (HxH : cnt x H = 0) by lia.
    assert (HxnH : x ∉ H) by (rewrite <- cnt_pos; lia).
    apply wp_bind. apply wp_bind. eapply wp_get; [exact Hx|]. intros n1 En1 _ _ _ _.
    assert (n_par n1 = Some q) as -> by (by rewrite <- Hpx, <- En1).
    destruct (sh_child _ _ Hs _ _ _ Hx Hpx) as (cq0&rel0&Hq0&_&Hch0&_). apply wp_bind. eapply wp_get; [exact Hq0|]. intros nq Enq _ _ _ _. apply wp_bind, wp_assert; [rewrite <- Enq in Hch0; by eapply gch_node|]. clear dependent cq0. clear dependent rel0.
    apply wp_bind. eapply wp_mono; [eapply (wp_inc_handle q); [done|eauto]|]. intros [] h1 (Hi1&E1). apply wp_ret.
    rewrite <- E1 in Hq, Hx, Hl, Hlq.
    destruct (inv_loc_tree _ _ _ _ _ _ Hi1 Hlq) as (cur&cq0&Hcur&Hq0&Hgq&Hwf&Hv). assert (cq0 = cq) as -> by congruence.
    pose proof Hi1 as (K1&R1&HiK1). pose proof HiK1 as (Hs1&Ho1&Hlk1&Hc1).
    apply wp_bind. eapply wp_offset; [done|done|exact Hv|].
    apply wp_bind. eapply wp_green_of; [exact Hq|by eapply owned_live|].
    destruct (sh_child _ _ Hs1 _ _ _ Hx Hpx) as (cq1&rel1&Hq1&Hmq&Hch1&_). assert (cq1 = cq) as -> by congruence.
    apply wp_bind, wp_assert; [by eapply gch_node|].
    apply wp_bind. eapply wp_get; [exact Hx|]. intros n' En' _ _ _ _. assert (n_idx n' = i) as -> by (rewrite Hix, <- En'; done).
    pose proof (ssel_valid i (o_grn cq)) as Hval. rewrite <- (Hss i).
    assert (HKx1 : K1 x = []).
    { destruct (K1 x) as [|z l] eqn:Ez; [done|]. assert (z ∈ K1 x) as Hz by (rewrite Ez; left).
      apply (sh_K _ _ Hs1) in Hz. rewrite E1 in Hz. apply (sh_K _ _ Hs) in Hz. rewrite HKx in Hz. by apply elem_of_nil in Hz. }
    destruct (ssel i (gchildren (o_grn cq))) as [[j [rel g]]|] eqn:Esel.
    + (* moves to the next sibling *)
      pose proof (Hval _ _ eq_refl) as Hch.
      apply wp_bind. apply wp_bind. eapply (wp_lift _ (c_offset cur + rel)%N).
      { rewrite <- Hgq in Hch. pose proof (mk_child_at _ Hwf _ _ _ _ Hcur Hch) as Hmk. unfold mk_child in Hmk; simpl in *.
        destruct (add32 Checked (c_offset cur) rel) eqn:E; simpl in Hmk; [|done]. congruence. }
      apply wp_bind. eapply (wp_set_core x _ (fun c => c_grn g (c_off (c_offset cur + rel) (c_idx j c)))); [exact Hx|done|done|].
      intros h2 E2. set (cx' := c_grn g (c_off (c_offset cur + rel) (c_idx j cx))) in *.
      apply wp_ret.
      destruct (inv_update h1 h2 (q :: x :: H) G K1 R1 x cx cx' q) as (HiK2&Hsame2&Hloc2); try done.
      { exists cq, rel. split_and!; [done|done|]. simpl. rewrite (view_offset _ _ Hs1 _ _ _ Hq Hv); [done|congruence]. }
      destruct (Hloc2 _ _ Hlq) as [Hlx2 Hsr2].
      apply wp_bind. eapply wp_mono; [eapply (wp_drop_same q h2 (x :: H) G); by exists K1, R1|].
      intros [] h3 (Hi3&Hsub3&Hsame3). apply wp_ret. simpl. rewrite E1 in Hsame2, Hsr2. split_and!.
      * done.
      * intros y Hy. eapply same_at_trans; [apply Hsame2|apply Hsame3]; [by intros ->|by right].
      * exists x. split; [done|]. apply (Hsame3 x); [left|]. done.
      * intros _. eapply same_root_trans; [exact Hsr2|]. eapply same_root_shrink; [done|]. apply (Hsame3 x); [left|]. exact Hlx2.
    + (* no further sibling: the node is freed *)
      assert (Hal : is_Some (pc (P h1) !! x)) by eauto.
      pose proof (ct_rc _ _ _ _ _ Hc1 x Hal) as Hr2.
      assert (q <> x) as Hqx. { intros ->. pose proof (sh_gsize _ _ Hs1 _ _ _ _ Hx Hpx Hx). lia. }
      rewrite HKx1, !cnt_cons, (bool_decide_eq_false_2 (q = x)), (bool_decide_eq_true_2 (x = x)), HxH in Hr2 by done. simpl in Hr2.
      apply wp_bind. apply wp_bind. eapply wp_dec; [exact Hx|exact Hr2|]. intros h2 E2.
      apply wp_bind. eapply wp_mono; [eapply (wp_free x h2 K1 R1 (q :: H) G)|].
      { rewrite E2. split_and!; psimpg; try done. apply counts_die; [|done|].
        - eapply counts_perm; [|exact Hc1]. apply Permutation_swap.
        - rewrite HKx1, cnt_cons, bool_decide_eq_false_2, HxH by done. done. }
      intros [] h3 (Hi3&Hsub3). apply wp_ret. rewrite E2 in Hsub3. psimp Hsub3.
      apply wp_bind. eapply wp_mono; [by eapply (wp_drop_same q h3 H G)|]. intros [] h4 (Hi4&Hsub4&Hsame4). apply wp_ret.
      split_and!; [done| |done|by intros [? ?]]. intros y Hy. eapply same_at_trans; [|by apply Hsame4].
      rewrite E1 in Hsub3. pose proof Hi3 as (K3&R3&Hs3&_). eapply same_at_shrink; [exact Hs3|done|].
      eapply inv_alive; [exact Hi3|by right].
  - (* a new handle, then the old one is dropped *)
    apply wp_bind. eapply wp_mono; [eapply (wp_sibling_opt_child env ssel x r p i q cq); try done; [eauto|apply ssel_valid]|].
    intros o h1 (Hi1&Hsub1&Hat).
    apply wp_bind. eapply wp_mono; [eapply (wp_drop_same x h1 (olist o ++ H) G)|].
    { eapply inv_perm; [|exact Hi1]. symmetry. apply Permutation_middle. }
    intros [] h2 (Hi2&Hsub2&Hsame2). apply wp_ret. split_and!; [done| | |].
    + intros y Hy. eapply same_at_trans; [by apply same_at_grow|]. apply Hsame2. apply elem_of_app. by right.
    + destruct (ssel i (gchildren (o_grn cq))) as [[j ch]|] eqn:Esel; simpl in *; [|done].
      destruct Hat as (y&->&Hly). exists y. split; [done|]. apply (Hsame2 y); [left|done].
    + intros [y ->]. destruct (ssel i (gchildren (o_grn cq))) as [[j ch]|] eqn:Esel; simpl in *; [|done].
      destruct Hat as (y'&[= <-]&Hly). eapply same_root_trans; [by eapply same_root_grow|]. eapply same_root_shrink; [done|].
      apply (Hsame2 y); [left|done].
Qed.

(** on a root, [take_ptr] forgets the handle before [parent_node()?] returns *)
Lemma wp_to_next_root x cx h H G :
  inv h (x :: H) G -> pc (P h) !! x = Some cx -> o_par cx = None ->
  wp (h_to_next env (h_sibling_opt env ssel) sel x)
     (fun o h' => o = None /\ (forall y, y ∈ H -> same_at (pc (P h)) (pc (P h')) y) /\
        if bool_decide (pr (P h) !! x = Some 1) && negb (o_mut cx) then h' = h else inv h' H G) h.
Proof using Hss.
  intros Hi Hx Hp. unfold h_to_next. apply wp_bind. unfold h_can_take_ptr. apply wp_bind. eapply wp_get; [exact Hx|].
  intros n En Hrc _ _ _. apply wp_ret. assert (n_mut n = o_mut cx) as -> by (by rewrite <- En).
  assert (bool_decide (pr (P h) !! x = Some 1) = (n_rc n =? 1)) as ->.
  { rewrite Hrc. destruct (Nat.eqb_spec (n_rc n) 1); case_bool_decide; congruence. }
  destruct ((n_rc n =? 1) && negb (o_mut cx)) eqn:Hcan; simpl.
  - apply wp_bind. apply wp_bind. eapply wp_get; [exact Hx|]. intros n' En' _ _ _ _.
    assert (n_par n' = None) as -> by (by rewrite <- Hp, <- En'). apply wp_ret. apply wp_ret. done.
  - apply wp_bind. eapply wp_sibling_opt_root; [exact Hx|done|apply ssel_nil|].
    apply wp_bind. eapply wp_mono; [by eapply wp_drop_same|]. intros [] h2 (Hi2&Hsub2&Hsame2). by apply wp_ret.
Qed.
End to_next.

(** ** Copies *)
Lemma wp_drop_keep x h H G :
  inv h (x :: H) G -> (x ∈ H \/ exists y cy, pc (P h) !! y = Some cy /\ o_par cy = Some x) ->
  wp (h_drop x) (fun _ h' => inv h' H G /\ pc (P h') = pc (P h)) h.
Proof.
  intros (K&R&Hs&Ho&Hl&Hc) Hwhy. pose proof (ct_H _ _ _ _ _ Hc x ltac:(left)) as Hx.
  pose proof (ct_rc _ _ _ _ _ Hc x Hx) as Hr. rewrite cnt_cons, bool_decide_eq_true_2 in Hr by done.
  assert (exists n, cnt x H + length (K x) = S n) as [n En].
  { destruct Hwhy as [Hin%cnt_pos|(y&cy&Hch)]; [exists (pred (cnt x H) + length (K x)); lia|]. assert (y ∈ K x) as Hin by (apply (sh_K _ _ Hs); eauto).
    exists (cnt x H + pred (length (K x))). destruct (K x); [by apply elem_of_nil in Hin|simpl; lia]. }
  change (1 + cnt x H + length (K x)) with (S (cnt x H + length (K x))) in Hr. rewrite En in Hr. destruct Hx as [cx Hx].
  apply wp_bind. eapply wp_dec; [exact Hx|exact Hr|]. intros h1 E1. simpl. apply wp_skip. split; [|by rewrite E1].
  exists K, R. rewrite E1. split_and!; psimpg; try done. apply counts_drop; [done|eauto|done].
Qed.
(** another strong reference to a green element that is alive *)
Lemma wp_green_own_inv g h H G :
  inv h H G -> live (po (P h)) g -> wp (h_green_own g) (fun _ h' => inv h' H (g :: G) /\ pc (P h') = pc (P h) /\ po (P h') = g :: po (P h)) h.
Proof.
  intros (K&R&Hs&Ho&Hl&Hc) Hg. eapply wp_green_own; [done|]. intros h' E'. split; [|by rewrite E'].
  exists K, R. rewrite E'. split_and!; psimpg; try done. pose proof (owned_wfg_live _ _ _ _ _ Ho Hg).
  assert (Hsub : forall g', live (g :: po (P h)) g' -> live (po (P h)) g').
  { intros g' (x&p&[->|Hx]%elem_of_cons&Hp); [by eapply live_sub|by exists x, p]. }
  destruct Ho as [HR HRn HRp HRw HRc]. constructor; try done.
  - rewrite HRp. apply Permutation_middle.
  - by constructor.
  - intros g1 g2 H1%Hsub H2%Hsub. by apply HRc.
Qed.
Lemma wp_clone_subtree env x h H G cx :
  henv_ok env -> inv h H G -> pc (P h) !! x = Some cx -> gis_node (o_grn cx) = true ->
  wp (h_clone_subtree env x)
     (fun y h' => inv h' (y :: H) G /\ pc (P h) ⊆ pc (P h') /\ loc (pc (P h')) y y [] /\ pc (P h) !! y = None /\
        gr (pc (P h')) y = o_grn cx /\ (o_mut <$> pc (P h') !! y) = Some false) h.
Proof.
  intros Henv Hi Hx Hg. pose proof Hi as (K&R&Hs&Ho&_&_).
  apply wp_bind. eapply wp_green_of; [exact Hx|by eapply owned_live|]. apply wp_bind, wp_assert; [done|].
  apply wp_bind. eapply wp_mono; [eapply wp_green_own_inv; [done|by eapply owned_live]|]. intros [] h1 (Hi1&E1&_).
  eapply wp_mono; [by eapply wp_new_root_gen|]. rewrite E1. intros y h2 (Hi2&Hsub&Hnew&cy&Hy&Hp&_&Hgy&Hm).
  split_and!; try done.
  - by eapply loc_root.
  - unfold gr. by rewrite Hy.
  - by rewrite Hy, <- Hm.
Qed.
Lemma wp_clone_for_update_loop env fuel : forall x h H G r p cx,
  henv_ok env -> inv h H G -> loc (pc (P h)) x r p -> pc (P h) !! x = Some cx -> o_mut cx = false -> gis_node (o_grn cx) = true ->
  length p < fuel ->
  wp (h_clone_for_update_loop env fuel x)
     (fun y h' => inv h' (y :: H) G /\ pc (P h) ⊆ pc (P h') /\
        exists r', loc (pc (P h')) y r' p /\ pc (P h) !! r' = None /\ gr (pc (P h')) r' = gr (pc (P h)) r /\
          (o_mut <$> pc (P h') !! r') = Some true) h.
Proof.
  induction fuel as [|fuel IH]; intros x h H G r p cx Henv Hi Hl Hx Hm Hg Hfuel; [lia|]. cbn [h_clone_for_update_loop].
  pose proof Hi as (K&R&Hs&Ho&_&_).
  apply wp_bind. eapply wp_get; [exact Hx|]. intros n En _ _ _ _. apply wp_bind, wp_assert. { rewrite <- En in Hm. simpl in Hm. by rewrite Hm. }
  apply wp_bind. apply wp_bind. eapply wp_get; [exact Hx|]. intros n1 En1 _ _ _ _. assert (n_par n1 = o_par cx) as -> by (by rewrite <- En1).
  destruct (o_par cx) as [q|] eqn:Hp.
  - destruct (loc_inv_child _ _ _ _ _ _ Hl Hx Hp) as (p'&->&Hlq). rewrite app_length in Hfuel; simpl in Hfuel.
    destruct (sh_child _ _ Hs _ _ _ Hx Hp) as (cq&rel&Hq&Hmq&Hch&_).
    apply wp_bind. eapply wp_get; [exact Hq|]. intros nq Enq _ _ _ _. apply wp_bind, wp_assert; [rewrite <- Enq in Hch; by eapply gch_node|].
    apply wp_bind. eapply wp_mono; [eapply (wp_inc_handle q); [done|eauto]|]. intros [] h1 (Hi1&E1). apply wp_ret.
    rewrite <- E1 in Hq, Hlq, Hx, Hl |- *.
    apply wp_bind. eapply wp_mono; [eapply (IH q); try done; [congruence|by eapply gch_node|lia]|].
    intros y h2 (Hi2&Hsub2&r'&Hl2&Hr2&Hg2&Hm2).
    pose proof (lookup_weaken _ _ _ _ Hx Hsub2) as Hx2. pose proof (lookup_weaken _ _ _ _ Hq Hsub2) as Hq2.
    pose proof Hi2 as (K2&R2&Hs2&Ho2&_&_).
    apply wp_bind. eapply wp_green_of; [exact Hx2|by eapply owned_live|]. apply wp_bind, wp_assert; [done|].
    apply wp_bind. apply wp_bind. eapply wp_get; [exact Hx2|]. intros n2 En2 _ _ _ _. apply wp_ret.
    assert (n_idx n2 = o_idx cx) as -> by (by rewrite <- En2).
    destruct (view_exists _ _ Hs2 x ltac:(eauto)) as [cur Hv].
    apply wp_bind. eapply wp_offset; [done|done|exact Hv|].
    destruct (loc_gsub _ _ Hs2 _ _ _ Hl2) as (cr2&cy&Hcr2&_&Hy&Hgs&Hmy).
    apply wp_bind. eapply wp_get; [exact Hy|]. intros n3 En3 _ _ _ _. assert (n_mut n3 = o_mut cy) as -> by (by rewrite <- En3).
    rewrite Hcr2 in Hm2. injection Hm2 as Hm2. rewrite Hm2 in Hmy. symmetry in Hmy. rewrite Hmy.
    assert (o_grn cy = o_grn cq) as Hgy.
    { pose proof Hi1 as (K1&R1&Hs1&_). destruct (loc_gsub _ _ Hs1 _ _ _ Hlq) as (cr1&cq1&Hcr1&_&Hq1&Hgs1&_).
      unfold gr in Hg2. rewrite Hcr1, Hcr2 in Hg2. congruence. }
    apply wp_bind. eapply wp_mono; [eapply (wp_new_child env y (o_idx cx) (c_offset cur) (o_grn cx) true rel cy); try done; congruence|].
    intros z h3 (Hi3&Hsub3&cz&Hz&Hpz&Hiz&Hgz&Hmz).
    pose proof (lookup_weaken _ _ _ _ Hx2 Hsub3) as Hx3.
    apply wp_bind. eapply wp_mono; [eapply (wp_drop_keep q h3 (z :: H) G)|].
    { eapply inv_perm; [|exact Hi3]. apply Permutation_swap. }
    { right. eauto. }
    intros [] h4 (Hi4&E4). apply wp_ret. rewrite E4. split_and!; [done|by etrans|].
    exists r'. split_and!.
    + rewrite <- Hiz. eapply loc_child; [done|exact Hpz|]. by apply (same_at_grow _ _ _ Hsub3).
    + done.
    + rewrite <- Hg2. by apply (same_root_grow _ _ _ _ _ Hsub3 Hl2).
    + rewrite (lookup_weaken _ _ _ _ Hcr2 Hsub3). simpl. by rewrite Hm2.
  - destruct (loc_inv_root _ _ _ _ _ Hl Hx Hp) as [-> ->]. apply wp_ret.
    apply wp_bind. eapply wp_green_of; [exact Hx|by eapply owned_live|]. apply wp_bind, wp_assert; [done|].
    apply wp_bind. eapply wp_mono; [eapply wp_green_own_inv; [done|by eapply owned_live]|]. intros [] h1 (Hi1&E1&_).
    eapply wp_mono; [by eapply wp_new_root_gen|]. rewrite E1. intros y h2 (Hi2&Hsub&Hnew&cy&Hy&Hpy&_&Hgy&Hmy).
    split_and!; [done|done|]. exists y. split_and!; [by eapply loc_root|done| |by rewrite Hy, <- Hmy].
    unfold gr. by rewrite Hy, Hx.
Qed.
Lemma wp_clone_for_update env x h H G r p cx :
  henv_ok env -> inv h H G -> loc (pc (P h)) x r p -> pc (P h) !! x = Some cx -> o_mut cx = false -> gis_node (o_grn cx) = true ->
  wp (h_clone_for_update env x)
     (fun y h' => inv h' (y :: H) G /\ pc (P h) ⊆ pc (P h') /\
        exists r', loc (pc (P h')) y r' p /\ pc (P h) !! r' = None /\ gr (pc (P h')) r' = gr (pc (P h)) r /\
          (o_mut <$> pc (P h') !! r') = Some true) h.
Proof.
  intros Henv Hi Hl Hx Hm Hg. pose proof Hi as (K&R&Hs&_). apply wp_bind, wp_size. eapply wp_clone_for_update_loop; try done.
  pose proof (loc_depth _ _ Hs _ _ _ Hl). rewrite P_size. lia.
Qed.
