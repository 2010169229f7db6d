(** * Handles: locations, reading, cloning, dropping (proofs only) *)
From Verif Require Export HeapSll.

(** ** Locations *)
Lemma loc_inv_root c x r p cx : loc c x r p -> c !! x = Some cx -> o_par cx = None -> r = x /\ p = [].
Proof. intros Hl Hx Hp. inversion Hl as [? cx' Hx' Hp'|? cx' q ? ? Hx' Hp' Hq]; subst; [done|congruence]. Qed.
Lemma loc_inv_child c x r p cx q : loc c x r p -> c !! x = Some cx -> o_par cx = Some q ->
  exists p', p = p' ++ [o_idx cx] /\ loc c q r p'.
Proof.
  intros Hl Hx Hp. inversion Hl as [? cx' Hx' Hp'|? cx' q' ? ? Hx' Hp' Hq]; subst; [congruence|].
  assert (cx' = cx) as -> by congruence. assert (q' = q) as -> by congruence. eauto.
Qed.
Lemma loc_fun c x r p : loc c x r p -> forall r' p', loc c x r' p' -> r' = r /\ p' = p.
Proof.
  induction 1 as [x cx Hx Hp|x cx q r p Hx Hp Hq IH]; intros r' p' Hl.
  - eapply loc_inv_root; eauto.
  - destruct (loc_inv_child _ _ _ _ _ _ Hl Hx Hp) as (p1&->&Hq'). by destruct (IH _ _ Hq') as [-> ->].
Qed.
Lemma loc_alive c x r p : loc c x r p -> is_Some (c !! x).
Proof. intros []; eauto. Qed.
Lemma loc_root_core c x r p : loc c x r p -> exists cr, c !! r = Some cr /\ o_par cr = None.
Proof. induction 1; eauto. Qed.
Lemma loc_submap c c' x r p : (forall y cy, c !! y = Some cy -> o_par cy = None -> c' !! y = Some cy) ->
  (forall y cy q, c !! y = Some cy -> o_par cy = Some q -> c' !! y = Some cy) -> loc c x r p -> loc c' x r p.
Proof. intros H1 H2. induction 1; econstructor; eauto. Qed.

Section shape.
Context (c : gmap id core) (K : id -> list id) (Hs : shape c K).
Lemma loc_gsub x r p : loc c x r p ->
  exists cr cx, c !! r = Some cr /\ o_par cr = None /\ c !! x = Some cx /\
    gsub (o_grn cr) p = Some (o_grn cx) /\ o_mut cr = o_mut cx.
Proof using Hs.
  induction 1 as [x cx Hx Hp|x cx q r p Hx Hp Hq (cr&cq&Hr&Hrp&Hcq&Hg&Hm)].
  - exists cx, cx. done.
  - destruct (sh_child _ _ Hs _ _ _ Hx Hp) as (cq'&rel&Hcq'&Hm'&Hch&_). assert (cq' = cq) as -> by congruence.
    exists cr, cx. split_and!; try done; [|congruence]. rewrite gsub_snoc, Hg. simpl. by rewrite Hch.
Qed.
Lemma sh_gsize x cx q cq : c !! x = Some cx -> o_par cx = Some q -> c !! q = Some cq -> gsize (o_grn cx) < gsize (o_grn cq).
Proof using Hs.
  intros Hx Hp Hq. destruct (sh_child _ _ Hs _ _ _ Hx Hp) as (cq'&rel&Hq'&_&Hch&_).
  assert (cq' = cq) as -> by congruence. apply (gsize_child _ _ _ Hch).
Qed.
Lemma loc_chain x r p : loc c x r p ->
  exists l, NoDup l /\ length l = S (length p) /\ (forall y, y ∈ l -> is_Some (c !! y)) /\
    (forall y cx cy, y ∈ l -> c !! x = Some cx -> c !! y = Some cy -> gsize (o_grn cx) <= gsize (o_grn cy)).
Proof using Hs.
  induction 1 as [x cx Hx Hp|x cx q r p Hx Hp Hq (l&Hnd&Hlen&Hal&Hsz)].
  - exists [x]. split_and!; [repeat constructor; set_solver|done|..]; intros y.
    + intros ->%elem_of_list_singleton. eauto.
    + intros cx' cy ->%elem_of_list_singleton ? ?. replace cy with cx' by congruence. done.
  - destruct (sh_child _ _ Hs _ _ _ Hx Hp) as (cq&rel&Hcq&_). pose proof (sh_gsize _ _ _ _ Hx Hp Hcq) as Hlt.
    exists (x :: l). split_and!.
    + constructor; [|done]. intros Hin. specialize (Hsz _ _ _ Hin Hcq Hx). lia.
    + rewrite app_length. simpl. lia.
    + intros y [->|Hy]%elem_of_cons; eauto.
    + intros y cx' cy [->|Hy]%elem_of_cons Hx' Hy'; assert (cx' = cx) as -> by congruence.
      * replace cy with cx by congruence. done.
      * specialize (Hsz _ _ _ Hy Hcq Hy'). lia.
Qed.
Lemma loc_depth x r p : loc c x r p -> length p < size c.
Proof using Hs.
  intros (l&Hnd&Hlen&Hal&_)%loc_chain. pose proof (list_size_bound c l Hnd Hal). lia.
Qed.
Lemma loc_exists x : is_Some (c !! x) -> exists r p, loc c x r p.
Proof using Hs.
  assert (exists M, forall y cy, c !! y = Some cy -> gsize (o_grn cy) <= M) as [M HM].
  { exists (map_fold (fun _ cy n => gsize (o_grn cy) + n) 0 c).
    apply (map_fold_ind (fun n (m : gmap id core) => forall y cy, m !! y = Some cy -> gsize (o_grn cy) <= n)).
    - intros y cy Hy. by rewrite lookup_empty in Hy.
    - intros i z m n Hi IH y cy [[-> ->]|[? Hy]]%lookup_insert_Some; [lia|]. specialize (IH _ _ Hy). lia. }
  intros [cx Hx]. remember (M - gsize (o_grn cx)) as n eqn:En. revert x cx Hx En.
  induction n as [n IH] using lt_wf_ind. intros x cx Hx En.
  destruct (o_par cx) as [q|] eqn:Hp; [|eauto using loc].
  destruct (sh_child _ _ Hs _ _ _ Hx Hp) as (cq&rel&Hcq&_). pose proof (sh_gsize _ _ _ _ Hx Hp Hcq) as Hlt.
  pose proof (HM _ _ Hcq). destruct (IH (M - gsize (o_grn cq)) ltac:(lia) q cq Hcq eq_refl) as (r&p&Hl).
  eauto using loc.
Qed.
Lemma sh_K_disj x p q : x ∈ K p -> x ∈ K q -> p = q.
Proof using Hs. rewrite !(sh_K _ _ Hs). intros (?&?&?) (?&?&?). congruence. Qed.
Lemma sh_K_alive x q : x ∈ K q -> is_Some (c !! x).
Proof using Hs. rewrite (sh_K _ _ Hs). intros (?&?&?). eauto. Qed.
Lemma sh_K_dead q : c !! q = None -> K q = [].
Proof using Hs.
  intros Hq. destruct (K q) as [|y l] eqn:E; [done|]. exfalso.
  assert (y ∈ K q) as (cy&Hy&Hp)%(sh_K _ _ Hs) by (rewrite E; left).
  destruct (sh_child _ _ Hs _ _ _ Hy Hp) as (?&?&?&_). congruence.
Qed.

(** ** Views *)
Lemma view_root x cx : c !! x = Some cx -> o_par cx = None -> view c x (CRoot (o_grn cx)).
Proof. intros Hx Hp. exists x, []. split; [eauto using loc|]. unfold gr. rewrite Hx. apply cursor_at_nil. Qed.
Lemma view_child x cx q cq : c !! x = Some cx -> o_par cx = Some q -> view c q cq ->
  exists rel, gchildren (c_green cq) !! o_idx cx = Some (rel, o_grn cx) /\
    view c x (CChild cq (o_idx cx) (c_offset cq + rel) (o_grn cx)).
Proof using Hs.
  intros Hx Hp (r&p&Hl&Hc). destruct (sh_child _ _ Hs _ _ _ Hx Hp) as (cq'&rel&Hcq'&_&Hch&_).
  destruct (loc_gsub _ _ _ Hl) as (cr&cq2&Hr&_&Hcq2&Hg&_). assert (cq2 = cq') as -> by congruence.
  pose proof (cursor_at_gsub _ _ _ Hc) as Hg'. unfold gr in Hg', Hc. rewrite Hr in Hg', Hc.
  assert (c_green cq = o_grn cq') as E by congruence. rewrite E. exists rel. split; [done|].
  exists r, (p ++ [o_idx cx]). split; [eauto using loc|]. unfold gr. rewrite Hr.
  rewrite (cursor_at_child _ _ _ (o_idx cx) (rel, o_grn cx) Hc); [done|]. by rewrite E.
Qed.
Lemma view_fun x c1 c2 : view c x c1 -> view c x c2 -> c1 = c2.
Proof. intros (r&p&Hl&H1) (r'&p'&Hl'&H2). destruct (loc_fun _ _ _ _ Hl _ _ Hl') as [-> ->]. congruence. Qed.
Lemma view_exists x : is_Some (c !! x) -> exists cur, view c x cur.
Proof using Hs.
  intros (r&p&Hl)%loc_exists. destruct (loc_gsub _ _ _ Hl) as (cr&cx&Hr&_&_&Hg&_).
  destruct (cursor_at (o_grn cr) p) as [cur|] eqn:E; [|apply cursor_at_None in E; congruence].
  exists cur, r, p. unfold gr. by rewrite Hr.
Qed.
Lemma view_inv x cur : view c x cur -> exists cx, c !! x = Some cx /\ c_green cur = o_grn cx /\
  match o_par cx with
  | None => cur = CRoot (o_grn cx)
  | Some q => exists cq rel, view c q cq /\ gchildren (c_green cq) !! o_idx cx = Some (rel, o_grn cx) /\
      cur = CChild cq (o_idx cx) (c_offset cq + rel) (o_grn cx)
  end.
Proof using Hs.
  intros Hv. pose proof Hv as (r&p&Hl&_). destruct (loc_alive _ _ _ _ Hl) as [cx Hx]. exists cx. split; [done|].
  destruct (o_par cx) as [q|] eqn:Hp.
  - destruct (sh_child _ _ Hs _ _ _ Hx Hp) as (cq0&_&Hcq&_). destruct (view_exists q ltac:(eauto)) as [cq Hq].
    destruct (view_child _ _ _ _ Hx Hp Hq) as (rel&Hch&Hv'). pose proof (view_fun _ _ _ Hv Hv') as ->. split; [done|]. by exists cq, rel.
  - pose proof (view_fun _ _ _ Hv (view_root _ _ Hx Hp)) as ->. done.
Qed.
Lemma view_offset x cx cur : c !! x = Some cx -> view c x cur -> o_mut cx = false -> c_offset cur = o_off cx.
Proof using Hs.
  intros Hx Hv Hm. pose proof Hv as (r&p&Hl&_). revert cx cur Hx Hv Hm. induction Hl as [x cx Hx Hp|x cx q r p Hx Hp Hq IH];
    intros cx' cur Hx' Hv Hm; assert (cx' = cx) as -> by congruence;
    destruct (view_inv _ _ Hv) as (cx2&Hx2&_&Hc); assert (cx2 = cx) as -> by congruence; rewrite Hp in Hc.
  - subst. simpl. by rewrite (sh_root _ _ Hs _ _ Hx Hp Hm).
  - destruct Hc as (cq&rel&Hvq&Hch&->). simpl. destruct (sh_child _ _ Hs _ _ _ Hx Hp) as (cq'&rel'&Hcq&Hmq&Hch'&Hoff).
    rewrite (Hoff Hm). rewrite (IH _ _ Hcq Hvq) by congruence. f_equal.
    destruct (view_inv _ _ Hvq) as (cq2&Hcq2&Hg&_). assert (cq2 = cq') as -> by congruence. rewrite Hg in Hch. congruence.
Qed.
End shape.

(** ** Greens of live nodes are live *)
Lemma owned_root c R o G x cx : owned c R o G -> c !! x = Some cx -> o_par cx = None -> o_grn cx ∈ o.
Proof.
  intros Ho Hx Hp. rewrite (on_perm _ _ _ _ Ho). apply elem_of_app. left. apply elem_of_map. exists x.
  split; [unfold gr; by rewrite Hx|]. apply (on_R _ _ _ _ Ho). eauto.
Qed.
Lemma owned_live c K R o G x cx : shape c K -> owned c R o G -> c !! x = Some cx -> live o (o_grn cx).
Proof.
  intros Hs Ho Hx. destruct (loc_exists _ _ Hs x ltac:(eauto)) as (r&p&Hl).
  destruct (loc_gsub _ _ Hs _ _ _ Hl) as (cr&cx'&Hr&Hrp&Hx'&Hg&_). assert (cx' = cx) as -> by congruence.
  exists (o_grn cr), p. split; [|done]. by eapply owned_root.
Qed.
Lemma owned_wfg_live c R o G g : owned c R o G -> live o g -> wfg g.
Proof. intros Ho (x&p&Hx&Hp). eapply wfg_gsub; [|exact Hp]. pose proof (on_wf _ _ _ _ Ho) as Hf. rewrite Forall_forall in Hf. auto. Qed.
Lemma view_tree c K R o G x cur : shape c K -> owned c R o G -> view c x cur ->
  exists root p, cursor_at root p = Some cur /\ wfg root /\ coherent root.
Proof.
  intros Hs Ho (r&p&Hl&Hc). exists (gr c r), p. destruct (loc_root_core _ _ _ _ Hl) as (cr&Hr&Hp).
  pose proof (owned_root _ _ _ _ _ _ Ho Hr Hp) as Hin. unfold gr in *. rewrite Hr in *. split_and!; [done|..].
  - eapply owned_wfg_live; [done|]. by apply live_elem.
  - eapply cohl_coherent; [apply Ho|]. by apply live_elem.
Qed.

(** proof device, no counterpart in the code *)
Definition updK (K : id -> list id) (q : id) (l : list id) : id -> list id := fun y => if decide (y = q) then l else K y.
Lemma updK_eq K q l : updK K q l q = l.
Proof. unfold updK. by rewrite decide_True. Qed.
Lemma updK_ne K q l y : y <> q -> updK K q l y = K y.
Proof. intros. unfold updK. by rewrite decide_False. Qed.

Lemma ix_delete c x y : y <> x -> ix (delete x c) y = ix c y.
Proof. intros. unfold ix. by rewrite lookup_delete_ne. Qed.
Lemma gr_delete c x y : y <> x -> gr (delete x c) y = gr c y.
Proof. intros. unfold gr. by rewrite lookup_delete_ne. Qed.
Lemma jn_delete m x y : y <> x -> jn (delete x m) y = jn m y.
Proof. intros. unfold jn. by rewrite lookup_delete_ne. Qed.
Lemma map_ext_in {A B} (f g : A -> B) l : (forall x, x ∈ l -> f x = g x) -> map f l = map g l.
Proof. intros H. induction l as [|x l IH]; [done|]. simpl. rewrite (H x), IH; [done| |left]. intros; apply H; by right. Qed.

(** removing a childless node *)
Lemma shape_delete c K x cx K' :
  shape c K -> c !! x = Some cx -> K x = [] ->
  match o_par cx with
  | Some q => exists l1 l2, K q = l1 ++ x :: l2 /\ K' = updK K q (l1 ++ l2)
  | None => K' = K
  end ->
  shape (delete x c) K'.
Proof.
  intros Hs Hx HK HK'.
  assert (Hno : forall y cy, c !! y = Some cy -> o_par cy <> Some x).
  { intros y cy Hy Hp. assert (y ∈ K x) as Hin by (apply (sh_K _ _ Hs); eauto). rewrite HK in Hin. by apply elem_of_nil in Hin. }
  assert (Hsub : forall q y, y ∈ K' q <-> y ∈ K q /\ y <> x).
  { intros q y. destruct (o_par cx) as [q0|] eqn:Hp.
    - destruct HK' as (l1&l2&E&->). unfold updK. destruct (decide (q = q0)) as [->|Hne].
      + pose proof (sh_nodup _ _ Hs q0) as Hnd. rewrite E in *. apply NoDup_app in Hnd as (_&Hd&Hnd).
        apply NoDup_cons in Hnd as [Hn _]. clear - Hd Hn. set_solver.
      + split; [|naive_solver]. intros Hy. split; [done|]. intros ->.
        apply Hne. apply (sh_K_disj _ _ Hs x); [done|]. apply (sh_K _ _ Hs). eauto.
    - subst K'. split; [|naive_solver]. intros Hy. split; [done|]. intros ->.
      apply (sh_K _ _ Hs) in Hy as (?&?&?). congruence. }
  assert (Hmap : forall q, map (ix (delete x c)) (K' q) = map (ix c) (K' q)).
  { intros q. apply map_ext_in. intros y [_ Hy]%Hsub. by apply ix_delete. }
  constructor.
  - intros y cy q [Hne Hy]%lookup_delete_Some Hp. destruct (sh_child _ _ Hs _ _ _ Hy Hp) as (cq&rel&Hq&?&?&?).
    exists cq, rel. split_and!; try done. rewrite lookup_delete_ne; [done|]. intros ->. exact (Hno _ _ Hy Hp).
  - intros y cy [Hne Hy]%lookup_delete_Some. exact (sh_root _ _ Hs y cy Hy).
  - intros q y. rewrite Hsub, (sh_K _ _ Hs). setoid_rewrite lookup_delete_Some. naive_solver.
  - intros q. pose proof (sh_nodup _ _ Hs q) as Hnd. destruct (o_par cx) as [q0|]; [|by subst].
    destruct HK' as (l1&l2&E&->). unfold updK. destruct (decide (q = q0)) as [->|]; [|done].
    rewrite E in Hnd. rewrite <- Permutation_middle in Hnd. by apply NoDup_cons in Hnd as [_ ?].
  - intros q cq [Hne Hq]%lookup_delete_Some Hm. rewrite Hmap. pose proof (sh_sorted _ _ Hs _ _ Hq Hm) as Hss.
    destruct (o_par cx) as [q0|]; [|by subst].
    destruct HK' as (l1&l2&E&->). unfold updK. destruct (decide (q = q0)) as [->|]; [|done].
    rewrite E, !map_app in *. simpl in Hss. revert Hss. clear. generalize (map (ix c) l1) as k1. intros k1.
    induction k1 as [|b k1 IH]; simpl; intros [Hs Hf]%StronglySorted_inv; [done|].
    constructor; [auto|]. rewrite Forall_app in *. destruct Hf as [? Hf]. by inversion_clear Hf.
Qed.

Lemma counts_child c r K H dead q cq x : shape c K -> counts c r K H dead -> c !! q = Some cq -> x ∈ K q ->
  exists n, r !! q = Some (S n) /\ S n = cnt q H + length (K q).
Proof.
  intros Hs Hc Hq Hx. pose proof (ct_rc _ _ _ _ _ Hc q ltac:(eauto)) as Hr.
  assert (0 < length (K q)) by (destruct (K q); [by apply elem_of_nil in Hx|simpl; lia]).
  exists (cnt q H + length (K q) - 1). split; [|lia]. rewrite Hr. f_equal. lia.
Qed.

Lemma wp_free_loop fuel : forall x h K R H G r p,
  invK (P h) K R H G (Some x) -> loc (pc (P h)) x r p -> length p < fuel ->
  wp (h_free_loop fuel x) (fun _ h' => inv h' H G /\ pc (P h') ⊆ pc (P h)) h.
Proof.
  induction fuel as [|fuel IH]; intros x h K R H G r p (Hs&Ho&Hl&Hc) Hloc Hfuel; [lia|]. cbn [h_free_loop].
  destruct (ct_dead _ _ _ _ _ Hc x eq_refl) as [[cx Hx] Hcnt].
  assert (HKx : K x = []) by (apply nil_length_inv; lia). assert (HcH : cnt x H = 0) by lia.
  assert (HxH : x ∉ H) by (intros Hin%cnt_pos; lia).
  apply wp_bind. eapply wp_get; [exact Hx|]. intros n En Hrc Hfst _ _.
  apply wp_bind, wp_assert.
  { rewrite (ct_rc _ _ _ _ _ Hc x ltac:(eauto)), Hcnt in Hrc. injection Hrc as <-. done. }
  apply wp_bind, wp_assert.
  { apply bool_decide_eq_true. destruct (o_mut cx) eqn:Hm.
    - destruct (lk_mut _ _ _ _ _ Hl _ _ Hx Hm) as [Hf _]. rewrite HKx in Hf. simpl in Hf. congruence.
    - pose proof (lk_imm _ _ _ _ _ Hl _ _ Hx Hm). congruence. }
  apply wp_bind. eapply wp_set_par; [exact Hx|]. intros h1 E1.
  assert (n_par n = o_par cx) as -> by (by rewrite <- En). assert (n_mut n = o_mut cx) as -> by (by rewrite <- En).
  assert (n_grn n = o_grn cx) as -> by (by rewrite <- En).
  destruct (o_par cx) as [q|] eqn:Hp.
  - (* a child *)
    destruct (sh_child _ _ Hs _ _ _ Hx Hp) as (cq&rel&Hq&Hmq&_).
    assert (Hxq : x ∈ K q) by (apply (sh_K _ _ Hs); eauto).
    assert (Hne : q <> x).
    { intros ->. rewrite HKx in Hxq. by apply elem_of_nil in Hxq. }
    destruct (counts_child _ _ _ _ _ _ _ _ Hs Hc Hq Hxq) as (m&Hrq&Em).
    destruct (elem_of_list_split _ _ Hxq) as (l1&l2&EK). pose proof (sh_nodup _ _ Hs q) as Hnd. rewrite EK in Hnd.
    destruct (loc_inv_child _ _ _ _ _ _ Hloc Hx Hp) as (p'&->&Hlq). rewrite app_length in Hfuel; simpl in Hfuel.
    apply wp_bind. eapply wp_get; [rewrite E1; psimpg; rewrite lookup_insert_ne by done; exact Hq|].
    intros nq _ Hrcq _ _ _. rewrite E1 in Hrcq. psimp Hrcq.
    apply wp_bind, wp_assert. { assert (n_rc nq = S m) as -> by congruence. done. }
    (* the list without x *)
    apply wp_bind.
    set (K' := updK K q (l1 ++ l2)).
    assert (Hwp : forall (Q' : unit -> heap -> Prop),
      (forall h2 f' n' q', P h2 = PM (<[x:=c_par None cx]> (pc (P h))) (pr (P h)) f' n' q' (po (P h)) (pk (P h)) ->
         links (delete x (pc (P h))) K' (delete x f') (delete x n') (delete x q') -> Q' () h2) ->
      wp (if o_mut cx then h_unlink q x else hskip) Q' h1).
    { intros Q' HQ'. destruct (o_mut cx) eqn:Hm.
      - destruct (lk_mut _ _ _ _ _ Hl _ _ Hq ltac:(congruence)) as [Hf Hcirc]. rewrite EK in Hf, Hcirc.
        eapply (wp_unlink q x l1 l2); try (rewrite E1; psimpg).
        + rewrite lookup_insert_ne by done. eauto.
        + intros y Hy. destruct (decide (x = y)) as [->|]; [rewrite lookup_insert; eauto|].
          rewrite lookup_insert_ne by done. eapply (sh_K_alive _ _ Hs _ q). by rewrite EK.
        + done.
        + done.
        + done.
        + intros h2 n' q' E2 Hc' _ _ Hfr. eapply HQ'; [exact E2|].
          constructor.
          * intros y cy [Hney Hy]%lookup_delete_Some Hmy. rewrite lookup_delete_ne by done.
            destruct (lk_mut _ _ _ _ _ Hl _ _ Hy Hmy) as [Hfy Hcy]. unfold K'. destruct (decide (y = q)) as [->|Hyq].
            -- rewrite updK_eq, lookup_insert. split; [done|]. eapply circ_frame; [exact Hc'|].
               intros z Hz. rewrite !jn_delete; [done|..]; intros ->;
               apply NoDup_app in Hnd as (_&Hd&[Hn _]%NoDup_cons); clear - Hz Hd Hn; set_solver.
            -- rewrite updK_ne, lookup_insert_ne by done. split; [done|]. eapply circ_frame; [exact Hcy|].
               intros z Hz. assert (z ∉ l1 ++ x :: l2) as Hzq.
               { rewrite <- EK. intros Hz'. apply Hyq. by apply (sh_K_disj _ _ Hs z). }
               assert (z <> x) as Hzx by (intros ->; apply Hzq; clear; set_solver).
               rewrite !jn_delete by done. unfold jn. by destruct (Hfr z Hzq) as [-> ->].
          * intros y cy [Hney Hy]%lookup_delete_Some Hmy Hpy. rewrite !lookup_delete_ne by done.
            destruct (lk_root _ _ _ _ _ Hl _ _ Hy Hmy Hpy). destruct (Hfr y) as [-> ->]; [|done].
            rewrite <- EK. rewrite (sh_K _ _ Hs). intros (?&?&?). congruence.
          * intros y cy [Hney Hy]%lookup_delete_Some Hmy. rewrite lookup_delete_ne by done.
            rewrite lookup_insert_ne; [by apply (lk_imm _ _ _ _ _ Hl _ _ Hy)|]. intros ->. congruence.
      - apply wp_skip. eapply HQ'; [exact E1|]. constructor.
        + intros y cy [Hney Hy]%lookup_delete_Some Hmy. rewrite lookup_delete_ne by done.
          destruct (lk_mut _ _ _ _ _ Hl _ _ Hy Hmy) as [Hfy Hcy]. unfold K'. rewrite updK_ne by congruence.
          split; [done|]. eapply circ_frame; [exact Hcy|]. intros z Hz. rewrite !jn_delete; [done|..]; intros ->;
            assert (y = q) by (by apply (sh_K_disj _ _ Hs x)); congruence.
        + intros y cy [Hney Hy]%lookup_delete_Some Hmy Hpy. rewrite !lookup_delete_ne by done.
          by apply (lk_root _ _ _ _ _ Hl _ _ Hy).
        + intros y cy [Hney Hy]%lookup_delete_Some Hmy. rewrite lookup_delete_ne by done.
          by apply (lk_imm _ _ _ _ _ Hl _ _ Hy). }
    apply Hwp. clear Hwp. intros h2 f' n' q' E2 Hl'.
    apply wp_bind. eapply wp_dec; [rewrite E2; psimpg; rewrite lookup_insert_ne by done; exact Hq|rewrite E2; exact Hrq|].
    intros h3 E3. rewrite E2 in E3. psimp E3.
    apply wp_bind. apply wp_del. intros h4 E4. rewrite E3 in E4. psimp E4. rewrite delete_insert_delete in E4.
    assert (Hs' : shape (delete x (pc (P h))) K').
    { eapply shape_delete; [done|done|done|]. rewrite Hp. eauto. }
    assert (Ho' : owned (delete x (pc (P h))) R (po (P h)) G).
    { destruct Ho as [HR HRn HRp HRw HRc]. constructor; try done.
      - intros y. rewrite HR. setoid_rewrite lookup_delete_Some. naive_solver congruence.
      - rewrite HRp. f_equiv. apply reflexive_eq, map_ext_in. intros y (?&?&?)%HR. rewrite gr_delete; [done|]. congruence. }
    assert (HlK : length (K q) = S (length (K' q))).
    { unfold K'. rewrite updK_eq, EK, !app_length. simpl. lia. }
    assert (Hc' : counts (delete x (pc (P h))) (delete x (<[q:=m]> (pr (P h)))) K' H (if m =? 0 then Some q else None)).
    { constructor.
      - intros y (cy&[Hney Hy]%lookup_delete_Some). rewrite lookup_delete_ne by done.
        pose proof (ct_rc _ _ _ _ _ Hc y ltac:(eauto)) as Hry. destruct (decide (y = q)) as [->|Hyq].
        + rewrite lookup_insert. f_equal. lia.
        + rewrite lookup_insert_ne by done. unfold K'. by rewrite updK_ne.
      - intros y (cy&[Hney Hy]%lookup_delete_Some) Hz. destruct (decide (y = q)) as [->|Hyq].
        + destruct (Nat.eqb_spec m 0); [done|]. lia.
        + unfold K' in Hz. rewrite updK_ne in Hz by done.
          pose proof (ct_live _ _ _ _ _ Hc y ltac:(eauto) Hz). congruence.
      - intros y. destruct (Nat.eqb_spec m 0) as [->|]; [|done]. intros [= <-]. split.
        + rewrite lookup_delete_ne by done. eauto.
        + lia.
      - intros y Hy. rewrite lookup_delete_ne; [by apply (ct_H _ _ _ _ _ Hc)|]. intros ->. done. }
    destruct (Nat.eqb_spec m 0) as [->|Hm0].
    + eapply wp_mono.
      * eapply (IH q h4 K' R H G r p'); [| |lia].
        -- rewrite E4. split_and!; psimpg; done.
        -- rewrite E4. psimpg. clear - Hs Hlq Hne HKx.
           assert (Hno : forall y cy, pc (P h) !! y = Some cy -> o_par cy <> Some x).
           { intros y cy Hy Hpy. assert (y ∈ K x) as Hin by (apply (sh_K _ _ Hs); eauto). rewrite HKx in Hin. by apply elem_of_nil in Hin. }
           induction Hlq as [y cy Hy Hpy|y cy q' r p Hy Hpy Hq IHq].
           ++ eapply loc_root; [by rewrite lookup_delete_ne|done].
           ++ eapply loc_child; [by rewrite lookup_delete_ne|done|]. apply IHq. intros ->. exact (Hno _ _ Hy Hpy).
      * intros ? h5 [Hi Hsub]. split; [done|]. etransitivity; [exact Hsub|]. rewrite E4. psimpg. apply delete_subseteq.
    + apply wp_skip. split; [|rewrite E4; psimpg; apply delete_subseteq]. exists K', R. rewrite E4. split_and!; psimpg; done.
  - (* a root *)
    pose proof (owned_root _ _ _ _ _ _ Ho Hx Hp) as Hin.
    apply wp_bind. eapply wp_green_drop; [rewrite E1; apply Ho|rewrite E1; exact Hin|].
    intros h2 o' E2 Hperm. rewrite E1 in E2, Hperm. psimp E2. psimp Hperm.
    apply wp_del. intros h3 E3. rewrite E2 in E3. psimp E3. rewrite delete_insert_delete in E3.
    split; [|rewrite E3; psimpg; apply delete_subseteq].
    assert (HxR : x ∈ R) by (apply (on_R _ _ _ _ Ho); eauto).
    apply elem_of_Permutation in HxR as [R' HR'].
    exists K, R'. rewrite E3. split_and!; psimpg.
    + eapply shape_delete; [done|done|done|]. by rewrite Hp.
    + destruct Ho as [HR HRn HRp HRw HRc]. rewrite HR' in HRn. apply NoDup_cons in HRn as [HxR' HRn].
      constructor.
      * intros y. setoid_rewrite lookup_delete_Some. split.
        -- intros Hy. assert (y <> x) by (intros ->; done). assert (y ∈ R) as (cy&?&?)%HR by (rewrite HR'; by right). eauto.
        -- intros (cy&[Hney Hy]&Hpy). assert (y ∈ R) as Hy' by (apply HR; eauto). rewrite HR' in Hy'.
           apply elem_of_cons in Hy' as [->|?]; done.
      * done.
      * apply (Permutation_cons_inv (a := o_grn cx)). rewrite <- Hperm, HRp, HR'. simpl. unfold gr at 1. rewrite Hx. constructor.
        f_equiv. apply reflexive_eq, map_ext_in. intros y Hy. rewrite gr_delete; [done|]. intros ->. done.
      * rewrite Hperm in HRw. by apply Forall_cons in HRw as [_ ?].
      * eapply cohl_subset; [|exact HRc]. intros g Hg. apply live_elem. rewrite Hperm. by right.
    + constructor.
      * intros y cy [Hney Hy]%lookup_delete_Some Hmy. rewrite lookup_delete_ne by done.
        destruct (lk_mut _ _ _ _ _ Hl _ _ Hy Hmy) as [Hfy Hcy]. split; [done|]. eapply circ_frame; [exact Hcy|].
        intros z Hz. rewrite !jn_delete; [done|..]; intros ->; apply (sh_K _ _ Hs) in Hz as (?&?&?); congruence.
      * intros y cy [Hney Hy]%lookup_delete_Some Hmy Hpy. rewrite !lookup_delete_ne by done.
        by apply (lk_root _ _ _ _ _ Hl _ _ Hy).
      * intros y cy [Hney Hy]%lookup_delete_Some Hmy. rewrite lookup_delete_ne by done.
        by apply (lk_imm _ _ _ _ _ Hl _ _ Hy).
    + constructor.
      * intros y (cy&[Hney Hy]%lookup_delete_Some). rewrite lookup_delete_ne by done. apply (ct_rc _ _ _ _ _ Hc). eauto.
      * intros y (cy&[Hney Hy]%lookup_delete_Some) Hz. pose proof (ct_live _ _ _ _ _ Hc y ltac:(eauto) Hz). congruence.
      * done.
      * intros y Hy. rewrite lookup_delete_ne; [by apply (ct_H _ _ _ _ _ Hc)|]. intros ->. done.
Qed.

(** ** Preservation of what other handles show *)
(** proof device, no counterpart in the code *)
Definition same_at (c c' : gmap id core) (x : id) : Prop :=
  forall r p, loc c x r p -> loc c' x r p /\ gr c' r = gr c r /\ (o_mut <$> c' !! x) = (o_mut <$> c !! x).
Lemma same_at_trans c1 c2 c3 x : same_at c1 c2 x -> same_at c2 c3 x -> same_at c1 c3 x.
Proof. intros H12 H23 r p Hl. destruct (H12 _ _ Hl) as (Hl2&Eg&Em). destruct (H23 _ _ Hl2) as (?&?&?). split_and!; congruence. Qed.
Lemma same_at_refl c x : same_at c c x.
Proof. done. Qed.
Lemma same_at_view c c' x cur : same_at c c' x -> view c x cur -> view c' x cur.
Proof. intros Hsa (r&p&Hl&Hc). destruct (Hsa _ _ Hl) as (Hl'&Eg&_). exists r, p. by rewrite Eg. Qed.
Lemma same_at_grow c c' x : c ⊆ c' -> same_at c c' x.
Proof.
  intros Hsub r p Hl. split; [|split].
  - eapply loc_submap; [| |exact Hl]; intros; by eapply lookup_weaken.
  - destruct (loc_root_core _ _ _ _ Hl) as (cr&Hr&_). unfold gr. by rewrite Hr, (lookup_weaken _ _ _ _ Hr Hsub).
  - destruct (loc_alive _ _ _ _ Hl) as [cx Hx]. by rewrite Hx, (lookup_weaken _ _ _ _ Hx Hsub).
Qed.
Lemma same_at_shrink c c' K' x : shape c' K' -> c' ⊆ c -> is_Some (c' !! x) -> same_at c c' x.
Proof.
  intros Hs Hsub Hx r p Hl.
  assert (loc c' x r p) as Hl'.
  { induction Hl as [x cx Hcx Hp|x cx q r p Hcx Hp Hq IH]; destruct Hx as [cx' Hx]; pose proof (lookup_weaken _ _ _ _ Hx Hsub);
      assert (cx' = cx) as -> by congruence.
    - by eapply loc_root.
    - eapply loc_child; [done|done|]. apply IH. destruct (sh_child _ _ Hs _ _ _ Hx Hp) as (cq&?&?&_). eauto. }
  split; [done|]. destruct (loc_root_core _ _ _ _ Hl') as (cr&Hr&_). unfold gr.
  rewrite Hr, (lookup_weaken _ _ _ _ Hr Hsub). split; [done|].
  destruct Hx as [cx Hx]. by rewrite Hx, (lookup_weaken _ _ _ _ Hx Hsub).
Qed.

(** ** Handles *)
Lemma counts_perm c r K H H' d : H ≡ₚ H' -> counts c r K H d -> counts c r K H' d.
Proof.
  intros Hp [H1 H2 H3 H4]. constructor; intros x; rewrite <- ?(cnt_perm x _ _ Hp); auto. rewrite <- Hp. auto.
Qed.
Lemma inv_perm h H H' G : H ≡ₚ H' -> inv h H G -> inv h H' G.
Proof. intros Hp (K&R&?&?&?&?). exists K, R. split_and!; try done. by eapply counts_perm. Qed.
Lemma inv_perm_G h H G G' : G ≡ₚ G' -> inv h H G -> inv h H G'.
Proof.
  intros Hp (K&R&?&Ho&?&?). exists K, R. split_and!; try done. destruct Ho. constructor; try done. by rewrite <- Hp.
Qed.
Lemma inv_alive h H G x : inv h H G -> x ∈ H -> is_Some (pc (P h) !! x).
Proof. intros (K&R&_&_&_&Hc). apply (ct_H _ _ _ _ _ Hc). Qed.
Lemma inv_shape h H G : inv h H G -> exists K, shape (pc (P h)) K.
Proof. intros (K&R&?&_). eauto. Qed.

(** dropping a handle whose node is still needed *)
Lemma counts_drop c r K H x n :
  counts c r K (x :: H) None -> is_Some (c !! x) -> cnt x H + length (K x) = S n -> counts c (<[x:=S n]> r) K H None.
Proof.
  intros Hc Hx Hn. constructor.
  - intros y Hy. destruct (decide (y = x)) as [->|Hne]; [rewrite lookup_insert; by f_equal|].
    rewrite lookup_insert_ne by done. rewrite (ct_rc _ _ _ _ _ Hc y Hy), cnt_cons, bool_decide_eq_false_2 by done. done.
  - intros y Hy Hz. destruct (decide (y = x)) as [->|Hne]; [lia|].
    apply (ct_live _ _ _ _ _ Hc y Hy). rewrite cnt_cons, bool_decide_eq_false_2 by done. done.
  - done.
  - intros y Hy. apply (ct_H _ _ _ _ _ Hc). by right.
Qed.
Lemma counts_die c r K H x :
  counts c r K (x :: H) None -> is_Some (c !! x) -> cnt x H + length (K x) = 0 -> counts c (<[x:=0]> r) K H (Some x).
Proof.
  intros Hc Hx Hn. constructor.
  - intros y Hy. destruct (decide (y = x)) as [->|Hne]; [rewrite lookup_insert; by f_equal|].
    rewrite lookup_insert_ne by done. rewrite (ct_rc _ _ _ _ _ Hc y Hy), cnt_cons, bool_decide_eq_false_2 by done. done.
  - intros y Hy Hz. destruct (decide (y = x)) as [->|Hne]; [done|]. exfalso.
    assert (None = Some y); [|done]. apply (ct_live _ _ _ _ _ Hc y Hy). rewrite cnt_cons, bool_decide_eq_false_2 by done. done.
  - by intros y [= <-].
  - intros y Hy. apply (ct_H _ _ _ _ _ Hc). by right.
Qed.
Lemma wp_free x h K R H G :
  invK (P h) K R H G (Some x) -> wp (h_free x) (fun _ h' => inv h' H G /\ pc (P h') ⊆ pc (P h)) h.
Proof.
  intros Hi. apply wp_bind, wp_size. destruct Hi as (Hs&Ho&Hl&Hc).
  destruct (ct_dead _ _ _ _ _ Hc x eq_refl) as [Hx _]. destruct (loc_exists _ _ Hs x Hx) as (r&p&Hloc).
  eapply wp_free_loop; [by split_and!|exact Hloc|]. pose proof (loc_depth _ _ Hs _ _ _ Hloc). rewrite P_size. lia.
Qed.
Lemma wp_drop x h H G : inv h (x :: H) G -> wp (h_drop x) (fun _ h' => inv h' H G /\ pc (P h') ⊆ pc (P h)) h.
Proof.
  intros (K&R&Hs&Ho&Hl&Hc). pose proof (ct_H _ _ _ _ _ Hc x ltac:(left)) as Hx.
  pose proof (ct_rc _ _ _ _ _ Hc x Hx) as Hr. rewrite cnt_cons, bool_decide_eq_true_2 in Hr by done. destruct Hx as [cx Hx].
  change (1 + cnt x H + length (K x)) with (S (cnt x H + length (K x))) in Hr.
  destruct (cnt x H + length (K x)) as [|n] eqn:En.
  all: apply wp_bind; eapply wp_dec; [exact Hx|exact Hr|]; intros h1 E1; simpl.
  - eapply wp_mono.
    + eapply (wp_free x h1 K R H G). rewrite E1. split_and!; psimpg; try done. by apply counts_die.
    + intros _ h' [? Hsub]. rewrite E1 in Hsub. psimp Hsub. done.
  - apply wp_skip. split; [|by rewrite E1]. exists K, R. rewrite E1. split_and!; psimpg; try done. by apply counts_drop.
Qed.
Lemma wp_inc_handle x h H G :
  inv h H G -> is_Some (pc (P h) !! x) -> wp (h_inc_rc x) (fun _ h' => inv h' (x :: H) G /\ pc (P h') = pc (P h)) h.
Proof.
  intros (K&R&Hs&Ho&Hl&Hc) [cx Hx]. eapply wp_inc; [exact Hx|]. intros h' n Hn E'. split; [|by rewrite E'].
  exists K, R. rewrite E'. split_and!; psimpg; try done. pose proof (ct_rc _ _ _ _ _ Hc x ltac:(eauto)) as Hr.
  constructor.
  - intros y Hy. rewrite cnt_cons. destruct (decide (y = x)) as [->|Hne].
    + rewrite lookup_insert, bool_decide_eq_true_2 by done. f_equal. rewrite Hr in Hn. injection Hn as <-. done.
    + rewrite lookup_insert_ne, bool_decide_eq_false_2 by done. by apply (ct_rc _ _ _ _ _ Hc).
  - intros y Hy. rewrite cnt_cons. intros Hz. apply (ct_live _ _ _ _ _ Hc y Hy). lia.
  - done.
  - intros y [->|Hy]%elem_of_cons; [eauto|]. by apply (ct_H _ _ _ _ _ Hc).
Qed.
Lemma wp_clone x h H G :
  inv h H G -> is_Some (pc (P h) !! x) -> wp (h_clone x) (fun y h' => y = x /\ inv h' (x :: H) G /\ pc (P h') = pc (P h)) h.
Proof. intros Hi Hx. apply wp_bind. eapply wp_mono; [by eapply wp_inc_handle|]. intros _ h' [? ?]. by apply wp_ret. Qed.

(** ** Offsets *)
Lemma gch_node g i x : gchildren g !! i = Some x -> gis_node g = true.
Proof. destruct g; [done|]. simpl. by rewrite lookup_nil. Qed.
Lemma wp_offset_mut_loop fuel : forall x h K R G cur acc (Q : N -> heap -> Prop) r p,
  shape (pc (P h)) K -> owned (pc (P h)) R (po (P h)) G -> view (pc (P h)) x cur -> loc (pc (P h)) x r p -> length p < fuel ->
  (acc + c_offset cur <= u32_max)%N -> Q (acc + c_offset cur)%N h -> wp (h_offset_mut_loop fuel x acc) Q h.
Proof.
  induction fuel as [|fuel IH]; intros x h K R G cur acc Q r p Hs Ho Hv Hloc Hfuel Hacc HQ; [lia|]. cbn [h_offset_mut_loop].
  destruct (view_inv _ _ Hs _ _ Hv) as (cx&Hx&Hg&Hcur).
  apply wp_bind. eapply wp_get; [exact Hx|]. intros n En _ _ _ _.
  assert (n_par n = o_par cx) as -> by (by rewrite <- En). assert (n_idx n = o_idx cx) as -> by (by rewrite <- En).
  destruct (o_par cx) as [q|] eqn:Hp.
  - destruct Hcur as (cq&rel&Hvq&Hch&->). simpl in Hacc, HQ.
    destruct (view_inv _ _ Hs _ _ Hvq) as (cq0&Hq&Hgq&_).
    destruct (loc_inv_child _ _ _ _ _ _ Hloc Hx Hp) as (p'&->&Hlq). rewrite app_length in Hfuel; simpl in Hfuel.
    apply wp_bind. eapply wp_green_of; [exact Hq|by eapply owned_live|].
    rewrite <- Hgq. apply wp_bind, wp_assert. { by eapply gch_node. }
    apply wp_bind. eapply wp_lift; [by rewrite Hch|].
    apply wp_bind. eapply (wp_lift _ (acc + rel)%N).
    { unfold add32. simpl. destruct (N.leb_spec (acc + rel) u32_max); [done|lia]. }
    eapply IH; [done|done|exact Hvq|exact Hlq|lia|lia|].
    by replace (acc + rel + c_offset cq)%N with (acc + (c_offset cq + rel))%N by lia.
  - subst cur. simpl in HQ. rewrite N.add_0_r in HQ. by apply wp_ret.
Qed.
Lemma wp_offset x h K R G cur (Q : N -> heap -> Prop) :
  shape (pc (P h)) K -> owned (pc (P h)) R (po (P h)) G -> view (pc (P h)) x cur -> Q (c_offset cur) h -> wp (h_offset x) Q h.
Proof.
  intros Hs Ho Hv HQ. destruct (view_inv _ _ Hs _ _ Hv) as (cx&Hx&_).
  apply wp_bind. eapply wp_get; [exact Hx|]. intros n En _ _ _ _.
  assert (n_mut n = o_mut cx) as -> by (by rewrite <- En). assert (n_off n = o_off cx) as -> by (by rewrite <- En).
  destruct (o_mut cx) eqn:Hm.
  - apply wp_bind, wp_size. pose proof Hv as (r&p&Hloc&_).
    eapply wp_offset_mut_loop; [done|done|exact Hv|exact Hloc| | |by rewrite N.add_0_l].
    + pose proof (loc_depth _ _ Hs _ _ _ Hloc). rewrite P_size. lia.
    + destruct (view_tree _ _ _ _ _ _ _ Hs Ho Hv) as (root&p'&Hc&Hwf&_). pose proof (cursor_at_fits _ Hwf _ _ Hc). lia.
  - apply wp_ret. by rewrite <- (view_offset _ _ Hs _ _ _ Hx Hv Hm).
Qed.

(** ** New nodes *)
Lemma shape_add c K x cx q cq rel l' :
  shape c K -> c !! x = None -> o_par cx = Some q -> c !! q = Some cq -> o_mut cq = o_mut cx ->
  gchildren (o_grn cq) !! o_idx cx = Some (rel, o_grn cx) -> (o_mut cx = false -> o_off cx = (o_off cq + rel)%N) ->
  l' ≡ₚ x :: K q -> (o_mut cx = true -> StronglySorted lt (map (ix (<[x:=cx]> c)) l')) ->
  shape (<[x:=cx]> c) (updK K q l').
Proof.
  intros Hs Hx Hp Hq Hm Hch Hoff Hl Hsort. assert (Hqx : q <> x) by congruence.
  assert (HKx : forall y, x ∉ K y).
  { intros y Hin. destruct (sh_K_alive _ _ Hs _ _ Hin). congruence. }
  constructor.
  - intros y cy q' Hy Hpy. destruct (decide (y = x)) as [->|Hne].
    + rewrite lookup_insert in Hy. injection Hy as <-. assert (q' = q) as -> by congruence. exists cq, rel.
      by rewrite lookup_insert_ne.
    + rewrite lookup_insert_ne in Hy by done. destruct (sh_child _ _ Hs _ _ _ Hy Hpy) as (cq'&rel'&Hq'&?&?&?).
      exists cq', rel'. rewrite lookup_insert_ne by congruence. done.
  - intros y cy Hy Hpy Hmy. destruct (decide (y = x)) as [->|Hne].
    + rewrite lookup_insert in Hy. injection Hy as <-. congruence.
    + rewrite lookup_insert_ne in Hy by done. exact (sh_root _ _ Hs _ _ Hy Hpy Hmy).
  - intros q' y. destruct (decide (q' = q)) as [->|Hne].
    + rewrite updK_eq, Hl, elem_of_cons, (sh_K _ _ Hs). split.
      * intros [->|(cy&Hy&Hpy)]; [exists cx; by rewrite lookup_insert|]. exists cy. rewrite lookup_insert_ne by congruence. done.
      * intros (cy&Hy&Hpy). destruct (decide (y = x)) as [->|Hyx]; [by left|]. right. rewrite lookup_insert_ne in Hy by done. eauto.
    + rewrite updK_ne, (sh_K _ _ Hs) by done. split.
      * intros (cy&Hy&Hpy). exists cy. rewrite lookup_insert_ne by congruence. done.
      * intros (cy&Hy&Hpy). destruct (decide (y = x)) as [->|Hyx].
        -- rewrite lookup_insert in Hy. congruence.
        -- rewrite lookup_insert_ne in Hy by done. eauto.
  - intros q'. destruct (decide (q' = q)) as [->|Hne].
    + rewrite updK_eq, Hl. constructor; [apply HKx|apply (sh_nodup _ _ Hs)].
    + rewrite updK_ne by done. apply (sh_nodup _ _ Hs).
  - intros q' cq' Hq' Hm'. destruct (decide (q' = q)) as [->|Hne].
    + rewrite updK_eq. apply Hsort. rewrite lookup_insert_ne in Hq' by done. congruence.
    + rewrite updK_ne by done. destruct (decide (q' = x)) as [->|Hqx'].
      * rewrite (sh_K_dead _ _ Hs x Hx). constructor.
      * rewrite lookup_insert_ne in Hq' by done. pose proof (sh_sorted _ _ Hs _ _ Hq' Hm') as Hss.
        rewrite (map_ext_in _ (ix c)); [done|]. intros y Hy. unfold ix. rewrite lookup_insert_ne; [done|].
        intros ->. by apply (HKx q').
Qed.
Lemma owned_add c R o G x cx q : owned c R o G -> c !! x = None -> o_par cx = Some q -> owned (<[x:=cx]> c) R o G.
Proof.
  intros [HR Hn Hp Hw Hco] Hx Hpx. constructor; try done.
  - intros y. rewrite HR. split.
    + intros (cy&Hy&?). exists cy. rewrite lookup_insert_ne by congruence. done.
    + intros (cy&Hy&?). destruct (decide (y = x)) as [->|Hne].
      * rewrite lookup_insert in Hy. congruence.
      * rewrite lookup_insert_ne in Hy by done. eauto.
  - rewrite Hp. f_equiv. apply reflexive_eq, map_ext_in. intros y (cy&?&_)%HR. unfold gr. rewrite lookup_insert_ne by congruence. done.
Qed.
Lemma counts_add c r K H x cx q l' :
  shape c K -> counts c r K (q :: H) None -> c !! x = None -> is_Some (c !! q) -> length l' = S (length (K q)) ->
  counts (<[x:=cx]> c) (<[x:=1]> r) (updK K q l') (x :: H) None.
Proof.
  intros Hs Hc Hx [cq Hq] Hlen. assert (Hqx : q <> x) by congruence.
  assert (HxH : cnt x H = 0).
  { destruct (cnt x H) eqn:E; [done|]. assert (x ∈ H) as Hin by (apply cnt_pos; lia).
    destruct (ct_H _ _ _ _ _ Hc x ltac:(by right)). congruence. }
  assert (HKx : K x = []) by (by apply (sh_K_dead _ _ Hs)).
  assert (Heq : forall y, y <> x -> cnt y (x :: H) + length (updK K q l' y) = cnt y (q :: H) + length (K y)).
  { intros y Hy. rewrite !cnt_cons. rewrite (bool_decide_eq_false_2 (x = y)) by done. destruct (decide (y = q)) as [->|Hne].
    - rewrite updK_eq, bool_decide_eq_true_2 by done. lia.
    - rewrite updK_ne, bool_decide_eq_false_2 by done. done. }
  constructor.
  - intros y [cy Hy]. destruct (decide (y = x)) as [->|Hne].
    + rewrite lookup_insert, updK_ne, HKx, cnt_cons, bool_decide_eq_true_2, HxH by done. done.
    + rewrite lookup_insert_ne in Hy by done; rewrite lookup_insert_ne by done. rewrite Heq by done. apply (ct_rc _ _ _ _ _ Hc). eauto.
  - intros y [cy Hy] Hz. destruct (decide (y = x)) as [->|Hne].
    + rewrite cnt_cons, bool_decide_eq_true_2 in Hz by done. lia.
    + rewrite lookup_insert_ne in Hy by done. rewrite Heq in Hz by done. apply (ct_live _ _ _ _ _ Hc y ltac:(eauto) Hz).
  - done.
  - intros y [->|Hy]%elem_of_cons; [rewrite lookup_insert; eauto|].
    destruct (decide (y = x)) as [->|Hne]; [rewrite lookup_insert; eauto|]. rewrite lookup_insert_ne by done.
    apply (ct_H _ _ _ _ _ Hc). by right.
Qed.

(** [NodeData::new] for a child: the handle of the parent becomes a handle of the child *)
Lemma wp_new_child env q i off g m rel cq h H G :
  henv_ok env -> inv h (q :: H) G -> pc (P h) !! q = Some cq -> o_mut cq = m -> gchildren (o_grn cq) !! i = Some (rel, g) ->
  (m = false -> off = (o_off cq + rel)%N) ->
  wp (h_new env (Some q) i off g m)
     (fun x h' => inv h' (x :: H) G /\ pc (P h) ⊆ pc (P h') /\
        exists cx, pc (P h') !! x = Some cx /\ o_par cx = Some q /\ o_idx cx = i /\ o_grn cx = g /\ o_mut cx = m) h.
Proof.
  intros Henv (K&R&Hs&Ho&Hl&Hc) Hq Hm Hch Hoff. unfold h_new. destruct m; cbv iota.
  - (* mutable *)
    destruct (lk_mut _ _ _ _ _ Hl _ _ Hq Hm) as [Hf Hcirc].
    apply wp_bind. eapply (wp_link q i (K q)); [eauto|intros y; apply (sh_K_alive _ _ Hs)|done|done|apply (sh_nodup _ _ Hs)|].
    intros r Hr.
    assert (Hnotin : (exists x, r = AlreadyInSll x /\ x ∈ K q /\ ix (pc (P h)) x = i) \/
      (forall x, exists l', added (pc (P h)) q x i (K q) r l')).
    { destruct Hr; [right; intros; eexists; by constructor..|]. left. exists x. split_and!; [done|set_solver|done]. }
    destruct Hnotin as [(x&->&Hx&Hix)|Hadd].
    + (* already there *)
      apply (sh_K _ _ Hs) in Hx as Hx'. destruct Hx' as (cx&Hcx&Hpx). rewrite (core_ix _ _ _ Hcx) in Hix.
      destruct (sh_child _ _ Hs _ _ _ Hcx Hpx) as (cq'&rel'&Hq'&Hmx&Hch'&_). assert (cq' = cq) as -> by congruence.
      rewrite Hix, Hch in Hch'. injection Hch' as <- Eg.
      apply wp_bind. eapply wp_get; [exact Hcx|]. intros n En _ _ _ _.
      apply wp_bind, wp_assert. { apply Nat.eqb_eq. rewrite <- Hix, <- En. done. }
      apply wp_bind. eapply wp_green_of; [exact Hcx|by eapply owned_live|].
      apply wp_bind, wp_assert. { rewrite <- Eg, bool_decide_eq_true_2, Nat.eqb_refl by done. done. }
      assert (exists k, length (K q) = S k) as [k Hk]. { destruct (K q); [by apply elem_of_nil in Hx|simpl; eauto]. }
      pose proof (ct_rc _ _ _ _ _ Hc q ltac:(eauto)) as Hrq. rewrite cnt_cons, bool_decide_eq_true_2, Hk in Hrq by done.
      rewrite Nat.add_succ_r in Hrq.
      apply wp_bind. apply wp_bind. eapply wp_dec; [exact Hq|exact Hrq|].
      intros h1 E1. simpl. apply wp_skip.
      assert (Hi1 : inv h1 H G).
      { exists K, R. rewrite E1. split_and!; psimpg; try done.
        replace (1 + cnt q H + k) with (S (cnt q H + k)) by lia. apply counts_drop; [done|eauto|lia]. }
      apply wp_bind. eapply wp_mono; [eapply (wp_inc_handle x); [exact Hi1|rewrite E1; psimpg; eauto]|].
      intros _ h2 [Hi2 E2]. apply wp_ret. rewrite E2, E1. psimpg. split; [done|]. split; [done|].
      exists cx. split_and!; try done. congruence.
    + (* a new node *)
      assert (Hwp : wp (p ← h_alloc env (ND 1 (Some q) i g true off None None None); _ ← h_add_to_sll r p; mret p)
         (fun x h' => inv h' (x :: H) G /\ pc (P h) ⊆ pc (P h') /\
        exists cx, pc (P h') !! x = Some cx /\ o_par cx = Some q /\ o_idx cx = i /\ o_grn cx = g /\ o_mut cx = true) h).
      { apply wp_bind. eapply wp_alloc; [done|]. intros x h1 Hx E1. destruct (Hadd x) as [l' Had].
        assert (Hqx : q <> x) by congruence.
        assert (HKx : forall y, x ∉ K y). { intros y Hin. destruct (sh_K_alive _ _ Hs _ _ Hin). congruence. }
        unfold core_of in E1; simpl in E1. 
        apply wp_bind. eapply (wp_add_to_sll _ q x i (K q) r l'); [exact Had|try (rewrite E1; psimpg)..|].
        - rewrite lookup_insert_ne by done. eauto.
        - intros y [->|Hy]%elem_of_cons; [rewrite lookup_insert; eauto|].
          rewrite lookup_insert_ne; [by eapply sh_K_alive|]. intros ->. by eapply HKx.
        - by rewrite lookup_insert_ne.
        - eapply circ_frame; [exact Hcirc|]. intros y Hy. rewrite !jn_insert_ne; [done|intros ->; by eapply HKx..].
        - constructor; [apply HKx|apply (sh_nodup _ _ Hs)].
        - intros h2 n' q' E2 Hc' Hfr. rewrite E1 in E2. psimp E2. apply wp_ret.
          set (cx := core_of (ND 1 (Some q) i g true off None None None)) in *.
          pose proof (added_perm _ _ _ _ _ _ _ Had) as Hperm.
          split; [|split].
          + exists (updK K q l'), R. rewrite E2. split_and!; psimpg.
            * eapply (shape_add _ _ _ _ q cq rel); try done. intros _. eapply added_sorted; [exact Had|..].
              -- by apply (sh_sorted _ _ Hs _ _ Hq).
              -- unfold ix. by rewrite lookup_insert.
              -- intros y Hy. unfold ix. rewrite lookup_insert_ne; [done|]. intros ->. by eapply HKx.
            * by eapply owned_add.
            * constructor.
              -- intros y cy Hy Hmy. destruct (decide (y = q)) as [->|Hyq].
                 { rewrite lookup_insert, updK_eq. done. }
                 rewrite lookup_insert_ne, updK_ne by done. destruct (decide (y = x)) as [->|Hyx].
                 { rewrite lookup_insert, (sh_K_dead _ _ Hs x Hx). done. }
                 rewrite lookup_insert_ne in Hy by done; rewrite lookup_insert_ne by done. destruct (lk_mut _ _ _ _ _ Hl _ _ Hy Hmy) as [Hfy Hcy].
                 split; [done|]. eapply circ_frame; [exact Hcy|]. intros z Hz. unfold jn.
                 assert (z <> x) as Hzx by (intros ->; by eapply HKx).
                 destruct (Hfr z) as [-> ->].
                 { intros [->|Hz']%elem_of_cons; [done|]. apply Hyq. by apply (sh_K_disj _ _ Hs z). }
                 rewrite E1. psimpg. by rewrite !lookup_insert_ne.
              -- intros y cy Hy Hmy Hpy. assert (y <> x) as Hyx. { intros ->. rewrite lookup_insert in Hy. injection Hy as <-. done. }
                 rewrite lookup_insert_ne in Hy by done. destruct (lk_root _ _ _ _ _ Hl _ _ Hy Hmy Hpy).
                 destruct (Hfr y) as [-> ->].
                 { intros [->|Hz']%elem_of_cons; [done|]. apply (sh_K _ _ Hs) in Hz' as (?&?&?). congruence. }
                 rewrite E1. psimpg. by rewrite !lookup_insert_ne.
              -- intros y cy Hy Hmy. assert (y <> x) as Hyx. { intros ->. rewrite lookup_insert in Hy. injection Hy as <-. done. }
                 rewrite lookup_insert_ne in Hy by done. assert (y <> q) by congruence. rewrite !lookup_insert_ne by done.
                 by apply (lk_imm _ _ _ _ _ Hl _ _ Hy).
            * eapply counts_add; try done; by rewrite Hperm.
          + rewrite E2. psimpg. by apply insert_subseteq.
          + exists cx. rewrite E2. psimpg. rewrite lookup_insert. done. }
      destruct Hr; try exact Hwp. exfalso. destruct (Hadd q) as [l' Had]. inversion Had.
  - (* immutable *)
    eapply wp_alloc; [done|]. intros x h1 Hx E1. set (cx := core_of (ND 1 (Some q) i g false off None None None)) in *.
    psimp E1. assert (Hqx : q <> x) by congruence.
    assert (HKx : forall y, x ∉ K y). { intros y Hin. destruct (sh_K_alive _ _ Hs _ _ Hin). congruence. }
    split; [|split].
    + exists (updK K q (x :: K q)), R. rewrite E1. split_and!; psimpg.
      * by eapply (shape_add _ _ _ _ q cq rel).
      * by eapply owned_add.
      * constructor.
        -- intros y cy Hy Hmy. assert (y <> x) as Hyx. { intros ->. rewrite lookup_insert in Hy. injection Hy as <-. done. }
           rewrite lookup_insert_ne in Hy by done. assert (y <> q) by congruence. rewrite lookup_insert_ne, updK_ne by done.
           destruct (lk_mut _ _ _ _ _ Hl _ _ Hy Hmy) as [Hfy Hcy]. split; [done|]. eapply circ_frame; [exact Hcy|].
           intros z Hz. rewrite !jn_insert_ne; [done|intros ->; by eapply HKx..].
        -- intros y cy Hy Hmy Hpy. assert (y <> x) as Hyx. { intros ->. rewrite lookup_insert in Hy. injection Hy as <-. done. }
           rewrite lookup_insert_ne in Hy by done. rewrite !lookup_insert_ne by done. by apply (lk_root _ _ _ _ _ Hl _ _ Hy).
        -- intros y cy Hy Hmy. destruct (decide (y = x)) as [->|Hyx]; [by rewrite lookup_insert|].
           rewrite lookup_insert_ne in Hy by done; rewrite lookup_insert_ne by done. by apply (lk_imm _ _ _ _ _ Hl _ _ Hy).
      * eapply counts_add; try done.
    + rewrite E1. psimpg. by apply insert_subseteq.
    + exists cx. rewrite E1. psimpg. rewrite lookup_insert. done.
Qed.

(** a new root takes over a reference to a green element *)
Lemma wp_new_root_gen env g m h H G :
  henv_ok env -> inv h H (g :: G) ->
  wp (h_new env None 0 0 g m)
     (fun x h' => inv h' (x :: H) G /\ pc (P h) ⊆ pc (P h') /\ pc (P h) !! x = None /\
        exists cx, pc (P h') !! x = Some cx /\ o_par cx = None /\ o_idx cx = 0 /\ o_grn cx = g /\ o_mut cx = m) h.
Proof.
  intros Henv (K&R&Hs&Ho&Hl&Hc).
  assert (Hgen : forall x h' (lk : option id) , pc (P h) !! x = None ->
     (lk = if m then Some x else None) ->
     P h' = add_pm (P h) x (ND 1 None 0 g m 0 None lk lk) ->
     inv h' (x :: H) G /\ pc (P h) ⊆ pc (P h') /\ pc (P h) !! x = None /\
        exists cx, pc (P h') !! x = Some cx /\ o_par cx = None /\ o_idx cx = 0 /\ o_grn cx = g /\ o_mut cx = m).
  { intros x h' lk Hx Hlk E'. set (cx := core_of (ND 1 None 0 g m 0 None lk lk)) in *. unfold add_pm in E'. fold cx in E'. psimp E'.
    assert (HKx : forall y, x ∉ K y). { intros y Hin. destruct (sh_K_alive _ _ Hs _ _ Hin). congruence. }
    assert (HKe : K x = []) by (by apply (sh_K_dead _ _ Hs)).
    assert (Hno : forall y cy, pc (P h) !! y = Some cy -> o_par cy <> Some x).
    { intros y cy Hy Hpy. destruct (sh_child _ _ Hs _ _ _ Hy Hpy) as (?&?&?&_). congruence. }
    split; [|split; [|split; [done|]]].
    - exists K, (x :: R). rewrite E'. split_and!; psimpg.
      + constructor.
        * intros y cy q Hy Hp. destruct (decide (y = x)) as [->|Hne]; [rewrite lookup_insert in Hy; by injection Hy as <-|].
          rewrite lookup_insert_ne in Hy by done. destruct (sh_child _ _ Hs _ _ _ Hy Hp) as (cq&rel&?&?&?&?).
          exists cq, rel. rewrite lookup_insert_ne by congruence. done.
        * intros y cy Hy Hp Hm. destruct (decide (y = x)) as [->|Hne]; [rewrite lookup_insert in Hy; by injection Hy as <-|].
          rewrite lookup_insert_ne in Hy by done. exact (sh_root _ _ Hs _ _ Hy Hp Hm).
        * intros q y. rewrite (sh_K _ _ Hs). split.
          -- intros (cy&?&?). exists cy. rewrite lookup_insert_ne by congruence. done.
          -- intros (cy&Hy&Hp). destruct (decide (y = x)) as [->|Hne]; [rewrite lookup_insert in Hy; by injection Hy as <-|].
             rewrite lookup_insert_ne in Hy by done. eauto.
        * apply (sh_nodup _ _ Hs).
        * intros q cq Hq Hm. destruct (decide (q = x)) as [->|Hne]; [rewrite HKe; constructor|].
          rewrite lookup_insert_ne in Hq by done. rewrite (map_ext_in _ (ix (pc (P h)))); [by apply (sh_sorted _ _ Hs _ _ Hq)|].
          intros y Hy. unfold ix. rewrite lookup_insert_ne; [done|]. intros ->. by eapply HKx.
      + destruct Ho as [HR HRn HRp HRw HRc]. constructor.
        * intros y. rewrite elem_of_cons, HR. split.
          -- intros [->|(cy&?&?)]; [exists cx; by rewrite lookup_insert|]. exists cy. rewrite lookup_insert_ne by congruence. done.
          -- intros (cy&Hy&Hp). destruct (decide (y = x)) as [->|Hne]; [by left|]. right. rewrite lookup_insert_ne in Hy by done. eauto.
        * constructor; [|done]. intros (?&?&?)%HR. congruence.
        * rewrite HRp. simpl. unfold gr at 2. rewrite lookup_insert. simpl. rewrite <- Permutation_middle. constructor. f_equiv.
          apply reflexive_eq, map_ext_in. intros y (?&?&?)%HR. unfold gr. rewrite lookup_insert_ne by congruence. done.
        * done.
        * done.
      + constructor.
        * intros y cy Hy Hmy. destruct (decide (y = x)) as [->|Hne]; [by rewrite lookup_insert, HKe|].
          rewrite lookup_insert_ne in Hy by done; rewrite lookup_insert_ne by done. destruct (lk_mut _ _ _ _ _ Hl _ _ Hy Hmy) as [Hfy Hcy]. split; [done|].
          eapply circ_frame; [exact Hcy|]. intros z Hz. rewrite !jn_insert_ne; [done|intros ->; by eapply HKx..].
        * intros y cy Hy Hmy Hpy. destruct (decide (y = x)) as [->|Hne].
          -- rewrite lookup_insert in Hy. injection Hy as <-. simpl in Hmy. rewrite Hmy in Hlk. rewrite Hlk, !lookup_insert. done.
          -- rewrite lookup_insert_ne in Hy by done. rewrite !lookup_insert_ne by done. by apply (lk_root _ _ _ _ _ Hl _ _ Hy).
        * intros y cy Hy Hmy. destruct (decide (y = x)) as [->|Hne]; [by rewrite lookup_insert|].
          rewrite lookup_insert_ne in Hy by done; rewrite lookup_insert_ne by done. by apply (lk_imm _ _ _ _ _ Hl _ _ Hy).
      + assert (HxH : cnt x H = 0).
        { destruct (cnt x H) eqn:E; [done|]. assert (x ∈ H) as Hin by (apply cnt_pos; lia).
          destruct (ct_H _ _ _ _ _ Hc x Hin). congruence. }
        constructor.
        * intros y [cy Hy]. rewrite cnt_cons. destruct (decide (y = x)) as [->|Hne].
          -- rewrite lookup_insert, bool_decide_eq_true_2, HKe, HxH by done. done.
          -- rewrite lookup_insert_ne in Hy by done; rewrite lookup_insert_ne by done. rewrite bool_decide_eq_false_2 by done. apply (ct_rc _ _ _ _ _ Hc). eauto.
        * intros y [cy Hy]. rewrite cnt_cons. destruct (decide (y = x)) as [->|Hne].
          -- rewrite bool_decide_eq_true_2 by done. done.
          -- rewrite lookup_insert_ne in Hy by done. intros Hz. apply (ct_live _ _ _ _ _ Hc y ltac:(eauto)). lia.
        * done.
        * intros y [->|Hy]%elem_of_cons; [rewrite lookup_insert; eauto|].
          destruct (decide (y = x)) as [->|Hne]; [rewrite lookup_insert; eauto|]. rewrite lookup_insert_ne by done.
          by apply (ct_H _ _ _ _ _ Hc).
    - rewrite E'. psimpg. by apply insert_subseteq.
    - exists cx. rewrite E'. psimpg. rewrite lookup_insert. done. }
  unfold h_new. destruct m; cbv iota.
  - apply wp_bind, wp_ret. apply wp_bind. eapply wp_alloc; [done|]. intros x h1 Hx E1.
    apply wp_bind. unfold h_add_to_sll. apply wp_bind. eapply wp_set_prev; [rewrite E1; psimpg; rewrite lookup_insert; eauto|].
    intros h2 E2. apply wp_bind. eapply wp_set_next; [rewrite E2, E1; psimpg; rewrite lookup_insert; eauto|].
    intros h3 E3. apply wp_skip, wp_ret. eapply (Hgen x h3 (Some x)); [done|done|].
    rewrite E3, E2, E1. unfold add_pm. psimpg. simpl. f_equal; by rewrite insert_insert.
  - eapply wp_alloc; [done|]. intros x h1 Hx E1. by eapply (Hgen x h1 None).
Qed.
