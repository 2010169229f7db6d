(** * The builder refines its specification (proofs only). *)
From Verif Require Export CacheFacts.

(** proof device, no counterpart in the code *)
Fixpoint parents_of (out : list (kind * list tree)) : list (kind * nat) :=
  match out with
  | [] => []
  | f :: out' => (f.1, length (concat (map snd out))) :: parents_of out'
  end.
(** proof device, no counterpart in the code *)
Definition brel (b : builder) (s : sbuilder) : Prop :=
  parents b = parents_of (outer s) /\ b_pending b = sb_pending s.
(** proof device, no counterpart in the code *)
Definition binv (env : cenv) (pr : profile) (b : builder) : Prop :=
  cinv env pr (bcache b) (children b).

Lemma length_concat_rev {A} (l : list (list A)) : length (concat (rev l)) = length (concat l).
Proof.
  induction l as [|x l IH]; simpl; [done|].
  rewrite concat_app, !app_length, IH. simpl. rewrite app_nil_r. lia.
Qed.
Lemma sb_pending_length s : length (sb_pending s) = sb_outer_count s + length (current s).
Proof. unfold sb_pending, sb_outer_count. by rewrite app_length, length_concat_rev. Qed.
Lemma b_pending_length b : length (b_pending b) = length (children b).
Proof. unfold b_pending. apply length_map. Qed.
Lemma brel_length b s : brel b s -> length (children b) = sb_outer_count s + length (current s).
Proof. intros [_ H]. by rewrite <- b_pending_length, H, sb_pending_length. Qed.
Lemma b_pending_gctext b : gctext (map snd (children b)) = ctext (b_pending b).
Proof. unfold b_pending. rewrite gctext_ctext, map_map. done. Qed.

Lemma b_op_step env pr b s o :
  cenv_ok env -> binv env pr b -> brel b s ->
  match b_op env pr b o with
  | Ok b' => exists s', sb_op s o = Some s' /\ brel b' s' /\ binv env pr b' /\
                        (pr = Checked -> sb_fits s o = true)
  | Err e => e = Panic /\ (sb_op s o = None \/ sb_fits s o = false)
  end.
Proof.
  intros Henv Hi HR. pose proof (brel_length _ _ HR) as Hlen. destruct HR as [HP HC].
  destruct o as [k t|k| |cp k]; simpl.
  - (* token *)
    unfold b_token. destruct (cache_token env (bcache b) k t (children b)) as [[h g] c'] eqn:E.
    apply (cache_token_inv env pr) in E as (He&_&_&_&_&Hi'); [|done|done].
    eexists. split; [done|]. split; [|split; [exact Hi'|done]].
    split; [done|]. unfold b_pending in *. simpl. rewrite map_app, HC. simpl. rewrite He.
    unfold sb_pending. simpl. by rewrite app_assoc.
  - (* start_node *)
    eexists. split; [done|]. split; [|split; [exact Hi|done]].
    split; simpl.
    + rewrite HP. f_equal. f_equal. rewrite Hlen. unfold sb_outer_count. rewrite app_length. lia.
    + unfold b_pending in *. simpl. rewrite HC. unfold sb_pending. simpl.
      rewrite concat_app. simpl. by rewrite !app_nil_r.
  - (* finish_node *)
    unfold b_finish_node. destruct (outer s) as [|[k before] out] eqn:Eo; simpl in HP; rewrite HP.
    { split; [done|]. by left. }
    set (n := length (before ++ concat (map snd out))).
    assert (Hn : n = sb_outer_count s) by (unfold sb_outer_count; by rewrite Eo).
    assert (Hpre : length (concat (rev (map snd out)) ++ before) = n).
    { unfold n. rewrite !app_length, length_concat_rev. lia. }
    assert (HC' : b_pending b = (concat (rev (map snd out)) ++ before) ++ current s).
    { rewrite HC. unfold sb_pending. rewrite Eo. simpl. rewrite concat_app. simpl. by rewrite app_nil_r. }
    assert (Hdrop : map erase (map snd (drop n (children b))) = current s).
    { rewrite <- !drop_map, map_map. fold (b_pending b). rewrite HC'. rewrite drop_app_alt by done. done. }
    assert (Htake : map (fun c => erase c.2) (take n (children b)) = concat (rev (map snd out)) ++ before).
    { rewrite <- take_map. fold (b_pending b). rewrite HC'. rewrite take_app_alt by done. done. }
    assert (Htext : blen (gctext (map snd (drop n (children b)))) = blen (ctext (current s))).
    { by rewrite gctext_ctext, Hdrop. }
    pose proof (cache_node_inv env pr (bcache b) (children b) k n Henv Hi) as Hc.
    destruct (cache_node env pr (bcache b) k (children b) n) as [[[[h g] cs] c']|e]; simpl.
    + destruct Hc as (Hle&->&Hg&Hk&Hkids&_&_&_&_&_&Hi'&Hfit).
      eexists. split; [done|]. split; [|split; [exact Hi'|]].
      * split; [done|]. simpl. unfold b_pending. simpl. rewrite map_app, Htake.
        unfold sb_pending. simpl. rewrite app_assoc. f_equal. f_equal.
        rewrite <- Hdrop. rewrite <- Hkids. destruct g as [a k' tl cs|]; [|done]. simpl in *. subst k'.
        f_equal. unfold kids. simpl. by rewrite map_map.
      * intros Hpr. specialize (Hfit Hpr). rewrite Htext in Hfit. apply N.leb_le. exact Hfit.
    + destruct Hc as [-> [Hc|Hc]]; (split; [done|]).
      * exfalso. lia.
      * right. rewrite Htext in Hc. apply N.leb_gt. exact Hc.
  - (* start_node_at *)
    unfold b_start_node_at.
    destruct (Nat.leb_spec cp (length (children b))) as [H1|H1]; simpl.
    2:{ split; [done|]. left. rewrite (proj2 (Nat.leb_gt cp _)) by lia. by rewrite andb_false_r. }
    assert (Hcp : (sb_outer_count s <=? cp) = match parents b with (_, f) :: _ => f <=? cp | [] => true end).
    { rewrite HP. unfold sb_outer_count. destruct (outer s) as [|[k0 bf] out]; [done|]. done. }
    destruct (Nat.leb_spec (sb_outer_count s) cp) as [H2|H2].
    + rewrite (proj2 (Nat.leb_le cp _)) by lia.
      assert (E : match parents b with (_, f) :: _ => rassert (f <=? cp) | [] => Ok tt end = Ok tt).
      { destruct (parents b) as [|[k0 f] ps]; [done|]. by rewrite <- Hcp. }
      rewrite E. simpl. change (true && true) with true. cbv iota.
      eexists. split; [done|]. split; [|split; [exact Hi|done]].
      split; simpl.
      * rewrite HP. f_equal. f_equal. rewrite app_length, take_length. unfold sb_outer_count in *. lia.
      * unfold b_pending in *. simpl. rewrite HC. unfold sb_pending. simpl.
        rewrite concat_app. simpl. rewrite app_nil_r, <- app_assoc. by rewrite take_drop.
    + assert (E : match parents b with (_, f) :: _ => rassert (f <=? cp) | [] => Ok tt end = Err Panic).
      { destruct (parents b) as [|[k0 f] ps]; [done|]. by rewrite <- Hcp. }
      rewrite E. simpl. split; [done|]. by left.
Qed.

Lemma b_run_spec env pr b s ops :
  cenv_ok env -> binv env pr b -> brel b s ->
  match b_run env pr b ops with
  | Ok b' => exists s', sb_run s ops = Some s' /\ brel b' s' /\ binv env pr b' /\
                        (pr = Checked -> sbl_run s ops = Some s')
  | Err e => e = Panic /\ sbl_run s ops = None
  end.
Proof.
  intros Henv. revert b s. induction ops as [|o ops IH]; intros b s Hi HR; simpl.
  - by exists s.
  - pose proof (b_op_step env pr b s o Henv Hi HR) as Hst.
    destruct (b_op env pr b o) as [b'|e] eqn:E; simpl.
    + destruct Hst as (s'&Hs&HR'&Hi'&Hf). specialize (IH b' s' Hi' HR'). rewrite Hs. unfold sbl_op. rewrite Hs.
      destruct (b_run env pr b' ops) as [b2|e2] eqn:E2.
      * destruct IH as (s2&H2&HR2&Hi2&Hf2). exists s2. split; [done|]. split; [done|]. split; [done|].
        intros Hpr. rewrite Hf by done. by apply Hf2.
      * destruct IH as [-> IH]. split; [done|]. by destruct (sb_fits s o).
    + destruct Hst as [-> Hst]. split; [done|]. unfold sbl_op.
      destruct Hst as [->| ->]; [|done]. by destruct (sb_fits s o).
Qed.

Lemma brel_new c : brel (builder_new c) sb_new.
Proof. done. Qed.

Lemma binv_op env pr b o b' : cenv_ok env -> binv env pr b -> b_op env pr b o = Ok b' -> binv env pr b'.
Proof.
  intros Henv Hi Ho. destruct o as [k t|k| |cp k]; simpl in Ho.
  - unfold b_token in Ho. destruct (cache_token env (bcache b) k t (children b)) as [[h g] c'] eqn:E.
    apply (cache_token_inv env pr) in E as (_&_&_&_&_&Hi'); [|done|done]. by injection Ho as <-.
  - by injection Ho as <-.
  - unfold b_finish_node in Ho. destruct (parents b) as [|[k n] ps]; [done|].
    pose proof (cache_node_inv env pr (bcache b) (children b) k n Henv Hi) as Hc.
    destruct (cache_node env pr (bcache b) k (children b) n) as [[[[h g] cs] c']|e]; [|done].
    simpl in Ho. injection Ho as <-. by destruct Hc as (_&->&_&_&_&_&_&_&_&_&Hi'&_).
  - unfold b_start_node_at in Ho. apply res_bind_ok in Ho as (?&_&Ho). apply res_bind_ok in Ho as (?&_&Ho).
    by injection Ho as <-.
Qed.
Lemma binv_later env pr b b' : cenv_ok env -> b_later env pr b b' -> binv env pr b -> binv env pr b'.
Proof.
  intros Henv H. induction H as [|b o b1 b2 Ho _ IH|b b2 _ IH]; intros Hi; [done|..].
  - apply IH. by eapply binv_op.
  - apply IH. unfold binv in *. simpl. by eapply cinv_drop.
Qed.
Lemma b_reachable_inv env pr b : cenv_ok env -> b_reachable env pr b -> binv env pr b.
Proof. intros Henv H. eapply binv_later; [done|exact H|]. apply cinv_empty. Qed.

(** the tables only grow *)
Lemma tables_op env pr b o b' :
  cenv_ok env -> binv env pr b -> b_op env pr b o = Ok b' ->
  (forall e, e ∈ tokens (bcache b) -> e ∈ tokens (bcache b')) /\
  (forall e, e ∈ nodes (bcache b) -> e ∈ nodes (bcache b')).
Proof.
  intros Henv Hi Ho. destruct o as [k t|k| |cp k]; simpl in Ho.
  - unfold b_token in Ho. destruct (cache_token env (bcache b) k t (children b)) as [[h g] c'] eqn:E.
    apply (cache_token_inv env pr) in E as (_&_&_&Ht&Hn&_); [|done|done]. injection Ho as <-. simpl.
    by rewrite Hn.
  - by injection Ho as <-.
  - unfold b_finish_node in Ho. destruct (parents b) as [|[k n] ps]; [done|].
    pose proof (cache_node_inv env pr (bcache b) (children b) k n Henv Hi) as Hc.
    destruct (cache_node env pr (bcache b) k (children b) n) as [[[[h g] cs] c']|e]; [|done].
    simpl in Ho. injection Ho as <-. simpl. destruct Hc as (_&_&_&_&_&->&?&_). done.
  - unfold b_start_node_at in Ho. apply res_bind_ok in Ho as (?&_&Ho). apply res_bind_ok in Ho as (?&_&Ho).
    by injection Ho as <-.
Qed.
Lemma tables_later env pr b b' :
  cenv_ok env -> b_later env pr b b' -> binv env pr b ->
  (forall e, e ∈ tokens (bcache b) -> e ∈ tokens (bcache b')) /\
  (forall e, e ∈ nodes (bcache b) -> e ∈ nodes (bcache b')).
Proof.
  intros Henv H. induction H as [|b o b1 b2 Ho _ IH|b b2 _ IH]; intros Hi; [done|..].
  - destruct (tables_op _ _ _ _ _ Henv Hi Ho) as [H1 H2].
    destruct IH as [H3 H4]; [by eapply binv_op|]. split; eauto.
  - apply IH. unfold binv in *. simpl. by eapply cinv_drop.
Qed.

(** from a new builder on a reachable cache, in the checked profile, exactly the
    specification happens *)
Lemma builder_refines env c ops :
  cenv_ok env -> cache_reachable env Checked c ->
  match sbl_run sb_new ops with
  | Some s => exists b, b_run env Checked (builder_new c) ops = Ok b /\ brel b s /\ binv env Checked b
  | None => b_run env Checked (builder_new c) ops = Err Panic
  end.
Proof.
  intros Henv Hc. pose proof (b_reachable_inv _ _ _ Henv Hc) as Hi.
  pose proof (b_run_spec env Checked (builder_new c) sb_new ops Henv Hi (brel_new c)) as H.
  destruct (b_run env Checked (builder_new c) ops) as [b|e].
  - destruct H as (s&_&HR&Hi'&Hl). rewrite Hl by done. eauto.
  - destruct H as [-> ->]. done.
Qed.
Lemma b_finish_erase b s :
  brel b s -> erase <$> b_finish b =
    match sb_pending s with [Node k cs] => Ok (Node k cs) | _ => Err Panic end.
Proof.
  intros [_ <-]. unfold b_finish, b_pending. destruct (children b) as [|[h g] [|x l]]; simpl; [done| |by destruct g].
  by destruct g.
Qed.
Lemma b_build_spec env c ops :
  cenv_ok env -> cache_reachable env Checked c ->
  erase <$> b_build env Checked c ops = spec_build ops.
Proof.
  intros Henv Hc. pose proof (builder_refines env c ops Henv Hc) as H. unfold spec_build, b_build.
  destruct (sbl_run sb_new ops) as [s|]; [|by rewrite H].
  destruct H as (b&Hb&HR&_). rewrite Hb. simpl. by apply b_finish_erase.
Qed.
Lemma b_finish_live env pr b g : binv env pr b -> b_finish b = Ok g -> (pr = Checked -> wfg g) /\ coherent g.
Proof.
  intros Hi Hf. unfold b_finish in Hf. destruct (children b) as [|[h e] [|x l]] eqn:E; [done| |done].
  destruct (gis_node e) eqn:En; [|done]. injection Hf as <-.
  assert (Hin : e ∈ all_elems (bcache b) (children b)).
  { apply elem_all_elems. right. right. exists h. rewrite E. left. }
  split.
  - intros Hpr. by apply (ci_wf _ _ _ _ Hi Hpr).
  - eapply cohl_coherent; [apply Hi|by apply live_elem].
Qed.
Lemma b_build_wf env pr c ops g :
  cenv_ok env -> cache_reachable env pr c -> b_build env pr c ops = Ok g ->
  (pr = Checked -> wfg g) /\ coherent g /\ gis_node g = true.
Proof.
  intros Henv Hc Hg. unfold b_build in Hg. apply res_bind_ok in Hg as (b&Hb&Hf).
  pose proof (b_run_spec env pr (builder_new c) sb_new ops Henv (b_reachable_inv _ _ _ Henv Hc) (brel_new c)) as H.
  rewrite Hb in H. destruct H as (s&_&_&Hi&_). destruct (b_finish_live _ _ _ _ Hi Hf). split; [done|]. split; [done|].
  unfold b_finish in Hf. repeat case_match; naive_solver.
Qed.

(** ** Consequences at the level of the specification *)
Lemma sb_op_text s o s' :
  sb_op s o = Some s' -> ctext (sb_pending s') = ctext (sb_pending s) ++ op_text o.
Proof.
  unfold sb_pending. destruct o as [k t|k| |cp k]; simpl.
  - intros [= <-]. simpl. rewrite !ctext_app. unfold ctext at 3. simpl. by rewrite app_nil_r, app_assoc.
  - intros [= <-]. simpl. rewrite concat_app. simpl. by rewrite !app_nil_r.
  - destruct (outer s) as [|[k before] out]; [done|]. intros [= <-]. simpl.
    rewrite concat_app. simpl. rewrite !ctext_app, !app_nil_r. unfold ctext at 3. simpl.
    rewrite app_nil_r. fold (ctext (current s)). by rewrite <- app_assoc.
  - destruct (_ && _); [|done]. intros [= <-]. simpl. rewrite concat_app. simpl.
    rewrite !app_nil_r, <- app_assoc. by rewrite take_drop.
Qed.
Lemma sb_run_text s ops s' :
  sb_run s ops = Some s' -> ctext (sb_pending s') = ctext (sb_pending s) ++ ops_text ops.
Proof.
  revert s. induction ops as [|o ops IH]; intros s; simpl.
  - intros [= <-]. unfold ops_text. simpl. by rewrite app_nil_r.
  - destruct (sb_op s o) as [s1|] eqn:E; [|done]. intros H. rewrite (IH _ H), (sb_op_text _ _ _ E).
    unfold ops_text. simpl. by rewrite app_assoc.
Qed.
Lemma sbl_sb_run s ops s' : sbl_run s ops = Some s' -> sb_run s ops = Some s'.
Proof.
  revert s. induction ops as [|o ops IH]; intros s; simpl; [done|]. unfold sbl_op.
  destruct (sb_fits s o); [|done]. destruct (sb_op s o); [|done]. apply IH.
Qed.

Lemma sb_run_app s ops1 ops2 :
  sb_run s (ops1 ++ ops2) = match sb_run s ops1 with Some s' => sb_run s' ops2 | None => None end.
Proof.
  revert s. induction ops1 as [|o ops1 IH]; intros s; simpl; [done|]. by destruct (sb_op s o).
Qed.
Lemma sbl_run_app s ops1 ops2 :
  sbl_run s (ops1 ++ ops2) = match sbl_run s ops1 with Some s' => sbl_run s' ops2 | None => None end.
Proof.
  revert s. induction ops1 as [|o ops1 IH]; intros s; simpl; [done|]. by destruct (sbl_op s o).
Qed.
Lemma b_run_app env pr b ops1 ops2 :
  b_run env pr b (ops1 ++ ops2) = b' ← b_run env pr b ops1; b_run env pr b' ops2.
Proof.
  revert b. induction ops1 as [|o ops1 IH]; intros b; simpl; [done|].
  destruct (b_op env pr b o); simpl; [|done]. apply IH.
Qed.

(** replaying a tree; [fits t]: all nodes (so the root, if a node) fit *)
Lemma sbl_run_tree t s :
  (is_node t = true -> (blen (ttext t) <= u32_max)%N) ->
  sbl_run s (tree_ops t) = Some {| outer := outer s; current := current s ++ [t] |}.
Proof.
  revert s. induction t as [k cs IH|k t] using tree_ind'; intros s Hb; simpl; [|done].
  specialize (Hb eq_refl). rewrite sbl_run_app.
  assert (Hcs : forall out cur, sbl_run {| outer := out; current := cur |} (concat (map tree_ops cs)) =
     Some {| outer := out; current := cur ++ cs |}).
  { assert (Hb' : forall c, c ∈ cs -> is_node c = true -> (blen (ttext c) <= u32_max)%N).
    { intros c Hc _. rewrite ttext_node in Hb. unfold ctext in Hb.
      pose proof (blen_concat_ge (map ttext cs) (ttext c)) as Hge.
      assert (ttext c ∈ map ttext cs) as Hin by (apply elem_of_map; eauto). specialize (Hge Hin). lia. }
    clear Hb. intros out. induction IH as [|c cs Hc Hcs IH']; intros cur; simpl.
    - by rewrite app_nil_r.
    - rewrite sbl_run_app, Hc by (apply Hb'; left). simpl. rewrite IH'.
      + by rewrite <- app_assoc.
      + intros c' Hc'. apply Hb'. by right. }
  rewrite Hcs. simpl. unfold sbl_op. simpl.
  rewrite (proj2 (N.leb_le _ _)); [done|]. exact Hb.
Qed.
Lemma sbl_run_tree_overflow t s :
  is_node t = true -> (u32_max < blen (ttext t))%N -> sbl_run s (tree_ops t) = None.
Proof.
  destruct t as [k cs|]; [|done]. intros _ Hb. simpl. rewrite sbl_run_app.
  destruct (sbl_run _ (concat (map tree_ops cs))) as [s'|] eqn:E; [|done].
  simpl. unfold sbl_op.
  assert (Hcur : outer s' = (k, current s) :: outer s /\ current s' = cs).
  { apply sbl_sb_run in E. revert E.
    enough (Hen : forall out cur, sb_run {| outer := out; current := cur |} (concat (map tree_ops cs)) =
      Some {| outer := out; current := cur ++ cs |}) by (rewrite Hen; by intros [= <-]).
    clear. assert (Hone : forall t out cur, sb_run {| outer := out; current := cur |} (tree_ops t) =
      Some {| outer := out; current := cur ++ [t] |}).
    { clear cs. induction t as [k cs IH|k t] using tree_ind'; intros out cur; simpl; [|done].
      rewrite sb_run_app.
      assert (H : forall out cur, sb_run {| outer := out; current := cur |} (concat (map tree_ops cs)) =
        Some {| outer := out; current := cur ++ cs |}).
      { clear out cur. induction IH as [|c cs Hc Hcs IH']; intros out cur; simpl; [by rewrite app_nil_r|].
        rewrite sb_run_app, Hc, IH'. by rewrite <- app_assoc. }
      by rewrite H. }
    intros out. induction cs as [|c cs IH']; intros cur; simpl; [by rewrite app_nil_r|].
    rewrite sb_run_app, Hone, IH'. by rewrite <- app_assoc. }
  destruct Hcur as [_ Hcur]. simpl. rewrite Hcur.
  rewrite (proj2 (N.leb_gt _ _)); [done|]. exact Hb.
Qed.

(** checkpoints: run the same balanced calls with and without the extra open node *)
Lemma sb_checkpoint_gen k base (fr out : list (kind * list tree)) cur ops :
  balanced (length (concat (map snd out)) + length base) (length fr) ops ->
  let cp := length (concat (map snd out)) + length base in
  match sbl_run {| outer := fr ++ (k, base) :: out; current := cur |} ops with
  | Some s1 => outer s1 = (k, base) :: out /\
      match fr with
      | [] => sbl_run {| outer := out; current := base ++ cur |} ops =
                Some {| outer := out; current := base ++ current s1 |}
      | _ => forall fr0 kl bl, fr = fr0 ++ [(kl, bl)] ->
             sbl_run {| outer := fr0 ++ (kl, base ++ bl) :: out; current := cur |} ops =
                Some {| outer := out; current := base ++ current s1 |}
      end
  | None =>
      match fr with
      | [] => sbl_run {| outer := out; current := base ++ cur |} ops = None
      | _ => forall fr0 kl bl, fr = fr0 ++ [(kl, bl)] ->
             sbl_run {| outer := fr0 ++ (kl, base ++ bl) :: out; current := cur |} ops = None
      end
  end.
Proof.
  set (cp := length (concat (map snd out)) + length base). intros Hbal. intros _. revert fr cur Hbal.
  induction ops as [|o ops IH]; intros fr cur Hbal.
  - simpl in *. apply nil_length_inv in Hbal as ->. done.
  - destruct o as [k' t|k'| |n k'].
    + (* token *) simpl in Hbal. specialize (IH fr (cur ++ [Token k' t]) Hbal). simpl.
      destruct fr as [|f fr]; simpl in *; [by rewrite <- app_assoc|done].
    + (* start *) simpl in Hbal. specialize (IH ((k', cur) :: fr) [] Hbal). simpl in *.
      destruct (sbl_run {| outer := (k', cur) :: fr ++ (k, base) :: out; current := [] |} ops) as [s1|].
      * destruct IH as [Ho IH]. split; [done|]. destruct fr as [|f fr].
        -- by apply (IH [] k' cur).
        -- intros fr0 kl bl Hfr. apply (IH ((k', cur) :: fr0) kl bl). by rewrite Hfr.
      * destruct fr as [|f fr].
        -- by apply (IH [] k' cur).
        -- intros fr0 kl bl Hfr. apply (IH ((k', cur) :: fr0) kl bl). by rewrite Hfr.
    + (* finish *) destruct fr as [|[kf bf] fr]; simpl in Hbal; [done|].
      specialize (IH fr (bf ++ [Node kf cur]) Hbal). simpl. unfold sbl_op. simpl.
      destruct (blen (concat (map ttext cur)) <=? u32_max)%N eqn:Hfit.
      * destruct (sbl_run {| outer := fr ++ (k, base) :: out; current := bf ++ [Node kf cur] |} ops) as [s1|].
        -- destruct IH as [Ho IH]. split; [done|]. intros fr0 kl bl Hfr.
           destruct fr0 as [|f0 fr0]; simpl in *.
           ++ injection Hfr as -> -> ->. rewrite ?Hfit. rewrite <- app_assoc. done.
           ++ injection Hfr as <- ->. simpl. rewrite ?Hfit. destruct (fr0 ++ [(kl, bl)]) eqn:E; [by destruct fr0|].
              rewrite <- E in IH. by apply IH.
        -- intros fr0 kl bl Hfr.
           destruct fr0 as [|f0 fr0]; simpl in *.
           ++ injection Hfr as -> -> ->. rewrite ?Hfit. rewrite <- app_assoc. done.
           ++ injection Hfr as <- ->. simpl. rewrite ?Hfit. destruct (fr0 ++ [(kl, bl)]) eqn:E; [by destruct fr0|].
              rewrite <- E in IH. by apply IH.
      * intros fr0 kl bl Hfr. destruct fr0 as [|f0 fr0]; simpl in *; by rewrite ?Hfit.
    + (* start_at *) simpl in Hbal. destruct Hbal as [Hcp Hbal]. simpl. unfold sbl_op. simpl.
      set (s1 := {| outer := fr ++ (k, base) :: out; current := cur |}).
      assert (Hn1 : sb_outer_count s1 = length (concat (map snd fr)) + cp).
      { unfold sb_outer_count, s1, cp. simpl. rewrite map_app, concat_app, app_length. simpl.
        rewrite app_length. lia. }
      destruct fr as [|f fr].
      * set (s2 := {| outer := out; current := base ++ cur |}).
        assert (Hn2 : sb_outer_count s2 = length (concat (map snd out))) by done.
        simpl in Hn1. rewrite Hn1, Hn2. cbn [s1 s2 outer current].
        destruct (Nat.leb_spec cp n); [|lia].
        destruct (Nat.leb_spec (length (concat (map snd out))) n); [|unfold cp in *; lia].
        rewrite app_length.
        destruct (Nat.leb_spec n (cp + length cur)) as [Hle|Hle].
        -- rewrite (proj2 (Nat.leb_le n _)) by (unfold cp in *; lia).
           change (true && true) with true. cbv iota.
           specialize (IH [(k', take (n - cp) cur)] (drop (n - cp) cur) Hbal). simpl in IH.
           replace (take (n - length (concat (map snd out))) (base ++ cur)) with (base ++ take (n - cp) cur).
           2:{ rewrite take_app_ge by (unfold cp in *; lia). f_equal. f_equal. unfold cp. lia. }
           replace (drop (n - length (concat (map snd out))) (base ++ cur)) with (drop (n - cp) cur).
           2:{ rewrite drop_app_ge by (unfold cp in *; lia). f_equal. unfold cp. lia. }
           simpl. destruct (sbl_run _ ops) as [s3|].
           ++ destruct IH as [Ho IH]. split; [done|]. by apply (IH [] k' (take (n - cp) cur)).
           ++ by apply (IH [] k' (take (n - cp) cur)).
        -- rewrite (proj2 (Nat.leb_gt n _)) by (unfold cp in *; lia). done.
      * specialize (IH ((k', take (n - sb_outer_count s1) cur) :: f :: fr) (drop (n - sb_outer_count s1) cur) Hbal).
        assert (Hn2 : forall fr0 kl bl, f :: fr = fr0 ++ [(kl, bl)] ->
          sb_outer_count {| outer := fr0 ++ (kl, base ++ bl) :: out; current := cur |} = sb_outer_count s1).
        { intros fr0 kl bl Hfr. rewrite Hn1, Hfr. unfold sb_outer_count, cp. simpl.
          rewrite !map_app, !concat_app, !app_length. simpl. rewrite !app_length. simpl. lia. }
        cbn [s1 outer current] in *.
        destruct ((sb_outer_count s1 <=? n) && (n <=? sb_outer_count s1 + length cur)) eqn:Hc.
        -- simpl in IH. simpl.
           destruct (sbl_run _ ops) as [s3|].
           ++ destruct IH as [Ho IH]. split; [done|]. intros fr0 kl bl Hfr. simpl. rewrite Hn2, Hc by done.
              apply (IH ((k', take (n - sb_outer_count s1) cur) :: fr0) kl bl). by rewrite Hfr.
           ++ intros fr0 kl bl Hfr. simpl. rewrite Hn2, Hc by done.
              apply (IH ((k', take (n - sb_outer_count s1) cur) :: fr0) kl bl). by rewrite Hfr.
        -- intros fr0 kl bl Hfr. simpl. rewrite Hn2 by done. by rewrite Hc.
Qed.
Lemma sbl_checkpoint s k ops :
  balanced (length (sb_pending s)) 0 ops ->
  sbl_run s (ops ++ [BStartNodeAt (length (sb_pending s)) k]) = sbl_run s (BStartNode k :: ops).
Proof.
  intros Hbal. rewrite sb_pending_length in *. destruct s as [out base].
  pose proof (sb_checkpoint_gen k base [] out [] ops Hbal) as H. simpl in H.
  rewrite sbl_run_app. simpl.
  destruct (sbl_run {| outer := (k, base) :: out; current := [] |} ops) as [s1|].
  - destruct H as [Ho H]. rewrite app_nil_r in H. rewrite H. simpl. unfold sbl_op. simpl.
    unfold sb_outer_count. simpl.
    rewrite (proj2 (Nat.leb_le _ _)) by lia. rewrite (proj2 (Nat.leb_le _ _)) by (rewrite app_length; lia).
    change (true && true) with true. cbv iota.
    replace (length (concat (map snd out)) + length base - length (concat (map snd out))) with (length base) by lia.
    rewrite take_app, drop_app. destruct s1; simpl in *. by subst.
  - rewrite app_nil_r in H. by rewrite H.
Qed.

(** ** Statements used by the property file *)
Lemma findb_Some {A} (f : A -> bool) l x : findb f l = Some x -> x ∈ l /\ f x = true.
Proof.
  induction l as [|y l IH]; simpl; [done|]. destruct (f y) eqn:E.
  - intros [= ->]. split; [left|done].
  - intros H. destruct (IH H). split; [by right|done].
Qed.
Lemma findb_None {A} (f : A -> bool) l : findb f l = None -> forall x, x ∈ l -> f x = false.
Proof.
  induction l as [|y l IH]; simpl; [by intros _ x ?%elem_of_nil|]. destruct (f y) eqn:E; [done|].
  intros H x [->|Hx]%elem_of_cons; [done|by apply IH].
Qed.

Lemma open_nodes_spec s ops s' :
  sb_run s ops = Some s' -> length (outer s') = open_nodes (length (outer s)) ops.
Proof.
  revert s. induction ops as [|o ops IH]; intros s; simpl; [by intros [= <-]|].
  destruct (sb_op s o) as [s1|] eqn:E; [|done]. intros H. rewrite (IH _ H).
  destruct o as [k t|k| |cp k]; simpl in E.
  - by injection E as <-.
  - by injection E as <-.
  - destruct (outer s) as [|[k0 bf] out]; [done|]. injection E as <-. simpl. by rewrite Nat.sub_0_r.
  - destruct (_ && _); [|done]. by injection E as <-.
Qed.
Lemma parents_of_length out : length (parents_of out) = length out.
Proof. induction out; simpl; [done|]. by f_equal. Qed.

(** the recorded first-child indices are ordered and within the pending elements *)
Fixpoint runs_ordered (hi : nat) (ps : list (kind * nat)) : Prop :=
  match ps with
  | [] => True
  | (_, n) :: ps' => n <= hi /\ runs_ordered n ps'
  end.
Lemma runs_ordered_weaken h h' ps : h <= h' -> runs_ordered h ps -> runs_ordered h' ps.
Proof. destruct ps as [|[k n] ps]; [done|]. simpl. intros ? [? ?]. split; [lia|done]. Qed.
Lemma runs_ordered_op env pr b o b' :
  cenv_ok env -> binv env pr b -> runs_ordered (length (children b)) (parents b) -> b_op env pr b o = Ok b' ->
  runs_ordered (length (children b')) (parents b').
Proof.
  intros Henv Hi Hr Ho. destruct o as [k t|k| |cp k]; simpl in Ho.
  - unfold b_token in Ho. destruct (cache_token env (bcache b) k t (children b)) as [[h g] c'].
    injection Ho as <-. simpl. eapply runs_ordered_weaken; [|done]. rewrite app_length. lia.
  - injection Ho as <-. simpl. split; [lia|done].
  - unfold b_finish_node in Ho. destruct (parents b) as [|[k n] ps]; [done|].
    pose proof (cache_node_inv env pr (bcache b) (children b) k n Henv Hi) as Hc.
    destruct (cache_node env pr (bcache b) k (children b) n) as [[[[h g] cs] c']|e]; [|done].
    simpl in Ho. injection Ho as <-. destruct Hc as (Hn&->&_). simpl in *.
    destruct Hr as [_ Hr]. eapply runs_ordered_weaken; [|done]. rewrite app_length, take_length. lia.
  - unfold b_start_node_at in Ho. apply res_bind_ok in Ho as (?&H1&Ho). apply res_bind_ok in Ho as (?&H2&Ho).
    injection Ho as <-. simpl. destruct (Nat.leb_spec cp (length (children b))); [|done]. split; [done|].
    destruct (parents b) as [|[k0 n] ps]; [done|]. destruct (Nat.leb_spec n cp); [|done].
    simpl in *. split; [done|]. apply Hr.
Qed.
Lemma runs_ordered_reachable env pr b :
  cenv_ok env -> b_reachable env pr b -> runs_ordered (length (children b)) (parents b).
Proof.
  intros Henv H. unfold b_reachable in H. pose proof (cinv_empty env pr) as Hi.
  change (cinv env pr cache_empty []) with (binv env pr (builder_new cache_empty)) in Hi.
  assert (Hr : runs_ordered (length (children (builder_new cache_empty))) (parents (builder_new cache_empty))) by done.
  revert Hi Hr. induction H as [|b o b1 b2 Ho _ IH|b b2 _ IH]; intros Hi Hr; [done|..].
  - apply IH; [by eapply binv_op|by eapply runs_ordered_op].
  - apply IH; [|done]. unfold binv in *. simpl. by eapply cinv_drop.
Qed.

(** deduplication *)
Lemma token_dedup env pr b k s b1 b2 b3 :
  cenv_ok env -> b_reachable env pr b ->
  b_op env pr b (BToken k s) = Ok b1 -> b_later env pr b1 b2 -> b_op env pr b2 (BToken k s) = Ok b3 ->
  last (children b3) = last (children b1).
Proof.
  intros Henv Hr H1 Hl H3. pose proof (b_reachable_inv _ _ _ Henv Hr) as Hi.
  assert (Hi1 : binv env pr b1) by (by eapply binv_op).
  pose proof (tables_later _ _ _ _ Henv Hl Hi1) as [Ht _].
  assert (Hi2 : binv env pr b2) by (by eapply binv_later).
  assert (Hi3 : binv env pr b3) by (by eapply binv_op).
  pose proof (tables_op _ _ _ _ _ Henv Hi2 H3) as [Ht3 _].
  simpl in *. unfold b_token in *.
  destruct (cache_token env (bcache b) k s (children b)) as [[h g] c'] eqn:E1.
  destruct (cache_token env (bcache b2) k s (children b2)) as [[h3 g3] c3] eqn:E3.
  injection H1 as <-. injection H3 as <-. simpl in *. rewrite !last_snoc.
  apply (cache_token_inv env pr) in E1 as (He1&->&[h1' Hin1]&_&_&_); [|done|done].
  apply (cache_token_inv env pr) in E3 as (He3&->&[h3' Hin3]&_&_&_); [|done|done].
  do 2 f_equal. eapply (ci_utok _ _ _ _ Hi3); simpl; [exact Hin3| |by rewrite He1, He3].
  apply Ht3, Ht. exact Hin1.
Qed.
Lemma node_dedup env pr b k n ps b1 b2 n2 ps2 b3 :
  cenv_ok env -> b_reachable env pr b ->
  parents b = (k, n) :: ps -> length (drop n (children b)) <= 3 ->
  (forall e, e ∈ drop n (children b) -> e.1 <> 0%N) ->
  b_op env pr b BFinishNode = Ok b1 -> b_later env pr b1 b2 ->
  parents b2 = (k, n2) :: ps2 -> drop n2 (children b2) = drop n (children b) ->
  b_op env pr b2 BFinishNode = Ok b3 ->
  snd <$> last (children b3) = snd <$> last (children b1).
Proof.
  intros Henv Hr Hp1 Hl3 Hnz H1 Hl Hp2 Hd H3. pose proof (b_reachable_inv _ _ _ Henv Hr) as Hi.
  assert (Hi1 : binv env pr b1) by (by eapply binv_op).
  pose proof (tables_later _ _ _ _ Henv Hl Hi1) as [_ Ht].
  assert (Hi2 : binv env pr b2) by (by eapply binv_later).
  assert (Hi3 : binv env pr b3) by (by eapply binv_op).
  pose proof (tables_op _ _ _ _ _ Henv Hi2 H3) as [_ Ht3].
  simpl in *. unfold b_finish_node in *. rewrite Hp1 in H1. rewrite Hp2 in H3.
  pose proof (cache_node_inv env pr (bcache b) (children b) k n Henv Hi) as Hc1.
  pose proof (cache_node_inv env pr (bcache b2) (children b2) k n2 Henv Hi2) as Hc3.
  destruct (cache_node env pr (bcache b) k (children b) n) as [[[[h g] cs] c']|e]; [|done].
  destruct (cache_node env pr (bcache b2) k (children b2) n2) as [[[[h3 g3] cs3] c3]|e]; [|done].
  simpl in H1, H3. injection H1 as <-. injection H3 as <-.
  destruct Hc1 as (_&_&Hg&Hk&Hkids&_&_&_&_&Hin&_). destruct Hc3 as (_&_&Hg3&Hk3&Hkids3&_&_&_&_&Hin3&_).
  simpl in *. rewrite !last_snoc. simpl. f_equal.
  destruct (Hin Hl3 Hnz) as [h1' Hin1]. rewrite Hd in Hin3, Hkids3.
  destruct (Hin3 Hl3 Hnz) as [h3' Hin3'].
  eapply (ci_unode _ _ _ _ Hi3); simpl; [exact Hin3'|apply Ht3, Ht; exact Hin1|congruence|].
  by rewrite Hkids, Hkids3.
Qed.
