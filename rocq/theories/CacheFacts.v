(** * Cache and builder: invariants and simulation (proofs only). *)
From Verif Require Export Builder.

(** ** Liveness and address coherence *)
(** proof device, no counterpart in the code *)
Definition live (L : list green) (x : green) : Prop := exists g p, g ∈ L /\ gsub g p = Some x.
(** proof device, no counterpart in the code *)
Definition cohl (L : list green) : Prop :=
  forall x y, live L x -> live L y -> gaddr x = gaddr y -> x = y.

Lemma elem_of_map {A B} (f : A -> B) l y : y ∈ map f l <-> exists x, y = f x /\ x ∈ l.
Proof. apply elem_of_list_fmap. Qed.
Lemma elem_of_concat {A} (ll : list (list A)) x : x ∈ concat ll <-> exists l, l ∈ ll /\ x ∈ l.
Proof.
  induction ll as [|l ll IH]; simpl.
  - split; [by intros ?%elem_of_nil|]. intros (?&?%elem_of_nil&_). done.
  - rewrite elem_of_app, IH. setoid_rewrite elem_of_cons. naive_solver.
Qed.

Lemma elem_of_gaddrs g a : a ∈ gaddrs g <-> exists p x, gsub g p = Some x /\ gaddr x = a.
Proof.
  induction g as [b k tl cs IH|b k s] using green_ind'; simpl.
  - rewrite elem_of_cons, elem_of_concat. split.
    + intros [->|(l&Hl&Ha)]; [by exists [], (GNode b k tl cs)|].
      apply elem_of_map in Hl as (c&->&Hc). rewrite Forall_forall in IH.
      apply (IH c Hc) in Ha as (p&x&Hp&Hx).
      apply elem_of_list_lookup in Hc as [i Hi]. exists (i :: p), x. simpl. by rewrite Hi.
    + intros (p&x&Hp&<-). destruct p as [|i p]; simpl in Hp; [injection Hp as <-; by left|].
      right. destruct (cs !! i) as [c|] eqn:Hi; [|done].
      exists (gaddrs c.2). assert (c ∈ cs) by (by eapply elem_of_list_lookup_2).
      split; [apply elem_of_map; eauto|]. rewrite Forall_forall in IH. apply IH; eauto.
  - rewrite elem_of_list_singleton. split.
    + intros ->. by exists [], (GTok b k s).
    + intros (p&x&Hp&<-). destruct p as [|i p]; simpl in Hp; [by injection Hp as <-|done].
Qed.

Lemma live_elem L g : g ∈ L -> live L g.
Proof. intros H. by exists g, []. Qed.
Lemma live_sub L g p x : live L g -> gsub g p = Some x -> live L x.
Proof. intros (h&q&Hh&Hq) Hx. exists h, (q ++ p). split; [done|]. by rewrite gsub_app, Hq. Qed.
Lemma live_kid L g x : live L g -> x ∈ kids g -> live L x.
Proof.
  intros Hl Hx. unfold kids in Hx. apply elem_of_map in Hx as (c&->&Hc).
  apply elem_of_list_lookup in Hc as [i Hi]. apply (live_sub _ _ [i] _ Hl). simpl. by rewrite Hi.
Qed.
Lemma live_subset L L' x : (forall g, g ∈ L' -> live L g) -> live L' x -> live L x.
Proof. intros H (g&p&Hg&Hp). eapply live_sub; [by apply H|done]. Qed.
Lemma cohl_subset L L' : (forall g, g ∈ L' -> live L g) -> cohl L -> cohl L'.
Proof. intros H Hc x y Hx Hy. apply Hc; by eapply live_subset. Qed.

Lemma live_cons_inv L g x :
  (forall c, c ∈ kids g -> live L c) -> live (g :: L) x -> x = g \/ live L x.
Proof.
  intros Hk (h&p&Hh&Hp). apply elem_of_cons in Hh as [->|Hh]; [|right; by exists h, p].
  destruct p as [|i p]; simpl in Hp; [left; congruence|]. right.
  destruct (gchildren g !! i) as [c|] eqn:E; [|done].
  eapply live_sub; [|exact Hp]. apply Hk. unfold kids. apply elem_of_map.
  exists c. split; [done|]. by eapply elem_of_list_lookup_2.
Qed.
Lemma cohl_add L g :
  cohl L -> (forall x, live L x -> gaddr x <> gaddr g) -> (forall c, c ∈ kids g -> live L c) ->
  cohl (g :: L).
Proof.
  intros Hc Hf Hk x y Hx Hy Heq.
  destruct (live_cons_inv _ _ _ Hk Hx) as [->|Hx'], (live_cons_inv _ _ _ Hk Hy) as [->|Hy'].
  - done.
  - exfalso. by eapply Hf.
  - exfalso. by eapply Hf.
  - by apply Hc.
Qed.
Lemma cohl_coherent L g : cohl L -> live L g -> coherent g.
Proof. intros Hc Hl p q x y Hx Hy. apply Hc; by eapply live_sub. Qed.

(** equal addresses of live lists give equal lists *)
Lemma cohl_map L l1 l2 :
  cohl L -> (forall x, x ∈ l1 -> live L x) -> (forall x, x ∈ l2 -> live L x) ->
  map gaddr l1 = map gaddr l2 -> l1 = l2.
Proof.
  intros Hc. revert l2. induction l1 as [|x l1 IH]; intros [|y l2] H1 H2 Heq; simpl in Heq; try done.
  injection Heq as Hxy Heq. f_equal.
  - apply Hc; [apply H1; left|apply H2; left|done].
  - apply IH; [|..|done]; intros; [apply H1|apply H2]; by right.
Qed.

(** ** The invariant *)
(** proof device, no counterpart in the code *)
Definition all_elems (c : cache) (pend : list (N * green)) : list green :=
  map snd (nodes c) ++ map snd (tokens c) ++ map snd pend.
Lemma elem_all_elems c pend g :
  g ∈ all_elems c pend <->
  (exists h, (h, g) ∈ nodes c) \/ (exists h, (h, g) ∈ tokens c) \/ (exists h, (h, g) ∈ pend).
Proof.
  assert (E : forall l : list (N * green), g ∈ map snd l <-> exists h, (h, g) ∈ l).
  { intros l. rewrite elem_of_map. split.
    - intros ([h x]&->&H). by exists h.
    - intros [h H]. by exists (h, g). }
  unfold all_elems. by rewrite !elem_of_app, !E.
Qed.
Lemma used_addrs_live c pend a :
  a ∈ used_addrs c pend <-> exists x, live (all_elems c pend) x /\ gaddr x = a.
Proof.
  unfold used_addrs, live. rewrite elem_of_concat. split.
  - intros (l&Hl&Ha). apply elem_of_map in Hl as ([h g]&->&He). simpl in Ha.
    apply elem_of_gaddrs in Ha as (p&x&Hp&Hx). exists x. split; [|done]. exists g, p. split; [|done].
    apply elem_all_elems. rewrite !elem_of_app in He. naive_solver.
  - intros (x&(g&p&Hg&Hp)&<-). apply elem_all_elems in Hg.
    exists (gaddrs g). split; [|apply elem_of_gaddrs; eauto].
    rewrite !map_app, !elem_of_app, !elem_of_map. destruct Hg as [[h H]|[[h H]|[h H]]].
    + left. by exists (h, g).
    + right. left. by exists (h, g).
    + right. right. by exists (h, g).
Qed.

(** proof device, no counterpart in the code *)
Record cinv (env : cenv) (pr : profile) (c : cache) (pend : list (N * green)) : Prop := {
  ci_coh : cohl (all_elems c pend);
  ci_nodes : forall h g, (h, g) ∈ nodes c -> gis_node g = true /\ h = node_hash env g;
  ci_toks : forall h g, (h, g) ∈ tokens c -> gis_node g = false /\ h = node_hash env g;
  ci_pend : forall h g, (h, g) ∈ pend -> h <> 0%N -> h = node_hash env g;
  ci_unode : forall h1 g1 h2 g2, (h1, g1) ∈ nodes c -> (h2, g2) ∈ nodes c ->
    gkind g1 = gkind g2 -> map gaddr (kids g1) = map gaddr (kids g2) -> g1 = g2;
  ci_utok : forall h1 g1 h2 g2, (h1, g1) ∈ tokens c -> (h2, g2) ∈ tokens c ->
    erase g1 = erase g2 -> g1 = g2;
  ci_wf : pr = Checked -> forall g, g ∈ all_elems c pend -> gis_node g = true -> wfg g;
}.

Lemma cinv_empty env pr : cinv env pr cache_empty [].
Proof.
  constructor; simpl.
  - intros x y (g&p&Hg&_) _ _. by apply elem_of_nil in Hg.
  - by intros ?? ?%elem_of_nil.
  - by intros ?? ?%elem_of_nil.
  - by intros ?? ?%elem_of_nil.
  - by intros ???? ?%elem_of_nil.
  - by intros ???? ?%elem_of_nil.
  - by intros _ ? ?%elem_of_nil.
Qed.
Lemma cinv_drop env pr c pend : cinv env pr c pend -> cinv env pr c [].
Proof.
  intros H. destruct H as [H1 H2 H3 H4 H5 H6 H7]. constructor; try done.
  - eapply cohl_subset; [|exact H1]. intros g Hg. apply live_elem.
    apply elem_all_elems. apply elem_all_elems in Hg as [?|[?|[? ?%elem_of_nil]]]; eauto. done.
  - intros h g ?%elem_of_nil. done.
  - intros Hpr g Hg. apply H7; [done|].
    apply elem_all_elems. apply elem_all_elems in Hg as [?|[?|[? ?%elem_of_nil]]]; eauto. done.
Qed.

(** *** hashes *)
Lemma hash_children_node_hash env cs h0 h :
  (forall e, e ∈ cs -> e.1 <> 0%N -> e.1 = node_hash env e.2) ->
  hash_children env h0 cs = Some h ->
  h = fold_left (fun h g => hu64 env h (node_hash env g)) (map snd cs) h0 /\
  (forall e, e ∈ cs -> e.1 <> 0%N).
Proof.
  revert h0. induction cs as [|e cs IH]; intros h0 Hh; simpl.
  - intros [= <-]. split; [done|]. by intros e ?%elem_of_nil.
  - destruct (N.eqb_spec e.1 0) as [|Hne]; [done|]. intros Hc.
    destruct (IH _ ltac:(intros; apply Hh; [by right|done]) Hc) as [-> H2].
    rewrite <- (Hh e) by (done || left). split; [done|].
    intros e' [->|?]%elem_of_cons; [done|]. by apply H2.
Qed.
Lemma node_hash_node env a k tl cs :
  node_hash env (GNode a k tl cs) =
  hfin env (fold_left (fun h g => hu64 env h (node_hash env g)) (map snd cs) (hkind env (hinit env) k)).
Proof.
  simpl. f_equal. generalize (hkind env (hinit env) k).
  induction cs as [|c cs IH]; intros h; simpl; [done|]. apply IH.
Qed.

Lemma elem_of_table_insert env t tab h g e :
  (forall h g, (h, g) ∈ tab -> h = node_hash env g) ->
  e ∈ table_insert env t tab h g <-> e = (h, g) \/ e ∈ tab.
Proof.
  intros Htab. unfold table_insert. rewrite elem_of_cons.
  destruct (grows env t tab); [|done].
  assert (E : map (fun e => (node_hash env e.2, e.2)) tab = tab).
  { induction tab as [|[h' g'] tab IH]; simpl; [done|]. rewrite IH.
    - rewrite <- (Htab h' g'); [done|left].
    - intros. apply Htab. by right. }
  by rewrite E.
Qed.

(** *** green_new on pending elements *)
Lemma assign_offsets_Ok_fits pr o els cs t :
  assign_offsets pr o els = Ok (cs, t) -> map snd cs = els /\ Forall (fun e => is_ok (green_text_len e)) els.
Proof.
  revert o cs t. induction els as [|e els IH]; intros o cs t; simpl; [by intros [= <- _]|].
  intros H. apply res_bind_ok in H as (l&Hl&H). apply res_bind_ok in H as (o'&_&H).
  apply res_bind_ok in H as ([cs' t']&H'&H). injection H as <- <-.
  destruct (IH _ _ _ H') as [<- HF]. split; [done|]. constructor; [by exists l|done].
Qed.
Lemma green_new_shape pr a k els g :
  green_new pr a k els = Ok g ->
  exists tl cs, g = GNode a k tl cs /\ map snd cs = els.
Proof.
  unfold green_new. intros H. apply res_bind_ok in H as ([cs t]&H&H'). injection H' as <-.
  apply assign_offsets_Ok_fits in H as [H _]. by exists t, cs.
Qed.
Lemma green_new_wfp pr a k els g :
  (forall e, e ∈ els -> gis_node e = true -> wfg e) -> green_new pr a k els = Ok g -> Forall wfg els.
Proof.
  unfold green_new. intros Hw H. apply res_bind_ok in H as ([cs t]&H&_).
  apply assign_offsets_Ok_fits in H as [_ H].
  rewrite Forall_forall in H |- *. intros e He. specialize (H e He). specialize (Hw e He).
  destruct e as [|b k' s]; [by apply Hw|]. simpl in H.
  destruct (N.leb_spec (blen s) u32_max); [by constructor|by destruct H].
Qed.
Lemma blen_concat_ge l (x : str) : x ∈ l -> (blen x <= blen (concat l))%N.
Proof.
  induction l as [|y l IH]; [by intros ?%elem_of_nil|]. simpl. rewrite blen_app.
  intros [->|H]%elem_of_cons; [lia|]. specialize (IH H). lia.
Qed.
(** exactly when building panics *)
Lemma green_new_pending a k els :
  (forall e, e ∈ els -> gis_node e = true -> wfg e) ->
  if (blen (gctext els) <=? u32_max)%N
  then exists g, green_new Checked a k els = Ok g /\ wfg g
  else green_new Checked a k els = Err Panic.
Proof.
  intros Hw. destruct (N.leb_spec (blen (gctext els)) u32_max) as [Hb|Hb].
  - assert (HF : Forall wfg els).
    { rewrite Forall_forall. intros e He. specialize (Hw e He). destruct e as [|b k' s]; [by apply Hw|].
      constructor. pose proof (blen_concat_ge (map gtext els) s) as Hs.
      fold (gctext els) in Hs. assert (s ∈ map gtext els); [|lia || (specialize (Hs ltac:(done)); lia)].
      apply elem_of_map. by exists (GTok b k' s). }
    rewrite green_new_fits by done. eexists. split; [done|]. by apply wfg_with_offsets.
  - destruct (decide (Forall (fun e => (glen e <= u32_max)%N) els)) as [HF|HF].
    + apply green_new_overflow; [|done]. rewrite Forall_forall in HF |- *.
      intros e He. specialize (Hw e He). specialize (HF e He).
      destruct e as [|b k' s]; [by apply Hw|]. by constructor.
    + unfold green_new. enough (assign_offsets Checked 0 els = Err Panic) as -> by done.
      clear Hb. generalize 0%N. induction els as [|e els IH]; intros o; [by destruct HF|].
      simpl. destruct (green_text_len e) as [l|er] eqn:E.
      * simpl. unfold add32. destruct (_ <=? _)%N; [|done]. simpl. rewrite IH; [done| |].
        -- intros; apply Hw; [by right|done].
        -- intros HF'. apply HF. constructor; [|done].
           destruct e as [a' k' tl cs|a' k' s]; simpl in E.
           ++ assert (wfg (GNode a' k' tl cs)) as Hg by (apply Hw; [left|done]).
              rewrite wfg_glen by done. by apply wfg_bound.
           ++ simpl. destruct (N.leb_spec (blen s) u32_max); done.
      * destruct e as [|a' k' s]; simpl in E; [done|]. destruct (_ <=? _)%N; [done|]. by injection E as <-.
Qed.
Lemma green_new_err pr a k els e :
  (forall e, e ∈ els -> pr = Checked -> gis_node e = true -> wfg e) ->
  green_new pr a k els = Err e -> e = Panic /\ (u32_max < blen (gctext els))%N.
Proof.
  intros Hw Hn. destruct pr.
  - pose proof (green_new_pending a k els ltac:(intros; by apply Hw)) as H.
    destruct (N.leb_spec (blen (gctext els)) u32_max) as [Hb|Hb].
    + destruct H as (g&Hg&_). congruence.
    + rewrite H in Hn. by injection Hn as <-.
  - clear Hw. unfold green_new in Hn.
    enough (forall o, (exists r, assign_offsets Wrapping o els = Ok r) \/
        (assign_offsets Wrapping o els = Err Panic /\ (u32_max < blen (gctext els))%N)) as Hen.
    { destruct (Hen 0%N) as [[[??] Hr]|[Hr ?]]; rewrite Hr in Hn; [done|]. by injection Hn as <-. }
    clear Hn. induction els as [|x els IH]; intros o; [left; by eexists|].
    simpl. destruct (green_text_len x) as [l|er] eqn:E.
    + simpl. assert (Ho : exists o', add32 Wrapping o l = Ok o').
      { unfold add32. destruct (_ <=? _)%N; eauto. }
      destruct Ho as [o' ->]. simpl.
      destruct (IH o') as [[[??] ->]|[-> Hb]]; simpl; [left; eauto|right].
      split; [done|]. unfold gctext in *. simpl. rewrite blen_app. lia.
    + right. destruct x as [|a' k' s]; simpl in E; [done|].
      destruct (N.leb_spec (blen s) u32_max); [done|]. injection E as <-.
      split; [done|]. unfold gctext, gtext. simpl. rewrite blen_app. lia.
Qed.

Lemma elem_of_drop {A} (l : list A) n x : x ∈ drop n l -> x ∈ l.
Proof. rewrite <- (take_drop n l) at 2. rewrite elem_of_app. by right. Qed.
Lemma elem_of_take' {A} (l : list A) n x : x ∈ take n l -> x ∈ l.
Proof. rewrite <- (take_drop n l) at 2. rewrite elem_of_app. by left. Qed.

(** a node freshly built from a suffix of the pending elements keeps the addresses coherent *)
Lemma cohl_new_node env pr c pend k n g L' :
  cenv_ok env -> cinv env pr c pend ->
  green_new pr (alloc env (clock c) (used_addrs c pend)) k (map snd (drop n pend)) = Ok g ->
  (forall x, x ∈ L' -> x = g \/ live (all_elems c pend) x) -> cohl L'.
Proof.
  intros [_ Hal] Hi Hg HL. apply green_new_shape in Hg as (tl&cs&->&Hcs).
  eapply (cohl_subset (_ :: all_elems c pend)).
  - intros x Hx. destruct (HL x Hx) as [->|Hl]; [apply live_elem; left|].
    destruct Hl as (y&p&Hy&Hp). exists y, p. split; [by right|done].
  - apply cohl_add; [apply Hi| |].
    + intros x Hx. simpl. intros Heq. apply (Hal (clock c) (used_addrs c pend)).
      apply used_addrs_live. by exists x.
    + unfold kids. simpl. rewrite Hcs. intros x Hx. apply live_elem.
      apply elem_of_map in Hx as ([h y]&->&Hy). apply elem_all_elems. right. right.
      exists h. by eapply elem_of_drop.
Qed.

(** *** NodeCache::token *)
Lemma cache_token_inv env pr c pend k s h g c' :
  cenv_ok env -> cinv env pr c pend -> cache_token env c k s pend = (h, g, c') ->
  erase g = Token k s /\ h = token_hash env k s /\ (exists h', (h', g) ∈ tokens c') /\
  (forall e, e ∈ tokens c -> e ∈ tokens c') /\ nodes c' = nodes c /\
  cinv env pr c' (pend ++ [(h, g)]).
Proof.
  intros Henv Hi Hc. unfold cache_token in Hc.
  pose proof (proj1 Henv (clock c) (tokens c) (token_hash env k s) (token_matches k s)) as Hp.
  destruct (probe _ _ _ _ _) as [e|].
  - injection Hc as <- <- <-. destruct Hp as [[h' He] Hm].
    destruct e as [|a k' s']; simpl in Hm; [done|].
    apply andb_true_iff in Hm as [Hk Hs]. apply N.eqb_eq in Hk as ->. apply bool_decide_eq_true in Hs as ->.
    split; [done|]. split; [done|]. split; [by exists h'|]. split; [done|]. split; [done|].
    destruct Hi as [H1 H2 H3 H4 H5 H6 H7].
    assert (Hsub : forall x, x ∈ all_elems {| nodes := nodes c; tokens := tokens c; clock := S (clock c) |}
                       (pend ++ [(token_hash env k s, GTok a k s)]) -> x ∈ all_elems c pend).
    { intros x Hx. apply elem_all_elems. apply elem_all_elems in Hx as [?|[?|[h0 Hx]]]; eauto.
      apply elem_of_app in Hx as [?|Hx]; eauto. apply elem_of_list_singleton in Hx as [= -> ->]. eauto. }
    constructor; try done; simpl.
    + eapply cohl_subset; [|exact H1]. intros x Hx. by apply live_elem, Hsub.
    + intros h0 g0 [?|Hx]%elem_of_app; [by apply H4|]. by apply elem_of_list_singleton in Hx as [= -> ->].
    + intros Hpr x Hx. by apply H7, Hsub.
  - injection Hc as <- <- <-. cbn [nodes tokens].
    set (a := alloc env (clock c) (used_addrs c pend)).
    change (green_token_new a k s) with (GTok a k s).
    set (g := GTok a k s).
    destruct Hi as [H1 H2 H3 H4 H5 H6 H7].
    assert (Htab : forall h g, (h, g) ∈ tokens c -> h = node_hash env g) by (intros; by apply H3).
    pose proof (fun e => elem_of_table_insert env (clock c) (tokens c) (token_hash env k s) g e Htab) as Hins.
    split; [done|]. split; [done|]. split; [exists (token_hash env k s); apply Hins; by left|].
    split; [intros e He; apply Hins; by right|]. split; [done|].
    assert (Hsub : forall x, x ∈ all_elems {| nodes := nodes c;
         tokens := table_insert env (clock c) (tokens c) (token_hash env k s) g; clock := S (clock c) |}
                       (pend ++ [(token_hash env k s, g)]) -> x = g \/ x ∈ all_elems c pend).
    { intros x Hx. rewrite elem_all_elems. apply elem_all_elems in Hx as [?|[[h0 Hx]|[h0 Hx]]]; eauto.
      - apply Hins in Hx as [[= -> ->]|?]; eauto.
      - apply elem_of_app in Hx as [?|Hx]; eauto. apply elem_of_list_singleton in Hx as [= -> ->]. eauto. }
    constructor; simpl.
    + eapply (cohl_subset (g :: all_elems c pend)).
      * intros x Hx. apply live_elem. apply Hsub in Hx as [->|?]; [left|by right].
      * apply cohl_add; [done| |by intros ? ?%elem_of_nil].
        intros x Hx Heq. apply (proj2 Henv (clock c) (used_addrs c pend)).
        apply used_addrs_live. by exists x.
    + done.
    + intros h0 g0 Hx. apply Hins in Hx as [[= -> ->]|?]; [done|by apply H3].
    + intros h0 g0 [?|Hx]%elem_of_app; [by apply H4|]. by apply elem_of_list_singleton in Hx as [= -> ->].
    + done.
    + assert (Hno : forall h1 g1, (h1, g1) ∈ tokens c -> erase g1 <> erase g).
      { intros h1 g1 Hg1 Heq. pose proof (H3 _ _ Hg1) as [Hn Hh1].
        destruct g1 as [|a1 k1 s1]; [done|]. simpl in Heq. injection Heq as -> ->. subst h1.
        specialize (Hp _ Hg1). simpl in Hp. rewrite N.eqb_refl in Hp.
        by rewrite bool_decide_eq_true_2 in Hp. }
      intros h1 g1 h2 g2 Hg1 Hg2 Heq.
      apply Hins in Hg1 as [[= -> ->]|Hg1]; apply Hins in Hg2 as [[= -> ->]|Hg2]; [done|..|by eapply H6].
      * exfalso. by eapply Hno.
      * exfalso. by eapply Hno.
    + intros Hpr x Hx Hn. apply Hsub in Hx as [->|?]; [done|by apply H7].
Qed.

(** *** NodeCache::node *)
Lemma node_matches_spec k cref n :
  node_matches k cref n = true <->
  gkind n = k /\ map gaddr (kids n) = map gaddr (map snd cref).
Proof.
  unfold node_matches. rewrite !andb_true_iff, N.eqb_eq, Nat.eqb_eq, bool_decide_eq_true, map_map.
  split; [by intros [[? _] ?]|]. intros [-> H]. split; [split; [done|]|done].
  apply (f_equal length) in H. unfold kids in H. by rewrite !length_map in H.
Qed.
Lemma cache_node_inv env pr c pend k n :
  cenv_ok env -> cinv env pr c pend ->
  match cache_node env pr c k pend n with
  | Ok (h, g, pend', c') =>
      n <= length pend /\ pend' = take n pend /\ gis_node g = true /\ gkind g = k /\
      kids g = map snd (drop n pend) /\
      tokens c' = tokens c /\ (forall e, e ∈ nodes c -> e ∈ nodes c') /\
      (h <> 0%N -> (exists h', (h', g) ∈ nodes c')) /\
      (h <> 0%N -> h = node_hash env g) /\
      (length (drop n pend) <= 3 -> (forall e, e ∈ drop n pend -> e.1 <> 0%N) -> exists h', (h', g) ∈ nodes c') /\
      cinv env pr c' (take n pend ++ [(h, g)]) /\
      (pr = Checked -> (blen (gctext (map snd (drop n pend))) <= u32_max)%N)
  | Err e => e = Panic /\ (length pend < n \/ (u32_max < blen (gctext (map snd (drop n pend))))%N)
  end.
Proof.
  intros Henv Hi. unfold cache_node.
  destruct (Nat.ltb_spec (length pend) n) as [Hlen|Hlen]; [by auto|].
  set (a := alloc env (clock c) (used_addrs c pend)).
  set (cref := drop n pend).
  assert (Hcref : forall e, e ∈ cref -> e ∈ pend) by (intros e; apply elem_of_drop).
  assert (Hw : forall e, e ∈ map snd cref -> pr = Checked -> gis_node e = true -> wfg e).
  { intros e He Hpr. apply (ci_wf _ _ _ _ Hi Hpr). apply elem_all_elems. right. right.
    apply elem_of_map in He as ([h x]&->&He). exists h. by apply Hcref. }
  pose proof Hi as [H1 H2 H3 H4 H5 H6 H7].
  assert (Htab : forall h g, (h, g) ∈ nodes c -> h = node_hash env g) by (intros; by apply H2).
  (* the two ways of building an uncached node *)
  assert (Hbuild : forall g, green_new pr a k (map snd cref) = Ok g ->
     gis_node g = true /\ gkind g = k /\ kids g = map snd cref /\
     (pr = Checked -> wfg g /\ (blen (gctext (map snd cref)) <= u32_max)%N)).
  { intros g Hg. pose proof (green_new_shape _ _ _ _ _ Hg) as (tl&cs&->&Hcs).
    split; [done|]. split; [done|]. split; [done|]. intros ->.
    assert (HF : Forall wfg (map snd cref)).
    { eapply green_new_wfp; [|exact Hg]. intros; by apply Hw. }
    apply green_new_Ok in Hg as (?&?&_); done. }
  assert (Hunc : forall P : Prop,
     (P -> length cref <= 3 -> (forall e, e ∈ cref -> e.1 <> 0%N) -> False) -> P ->
     match (node ← green_new pr a k (map snd cref);
            Ok (0%N, node, take n pend, {| nodes := nodes c; tokens := tokens c; clock := S (clock c) |})) with
     | Ok (h, g, pend', c') =>
        n <= length pend /\ pend' = take n pend /\ gis_node g = true /\ gkind g = k /\
        kids g = map snd cref /\
        tokens c' = tokens c /\ (forall e, e ∈ nodes c -> e ∈ nodes c') /\
        (h <> 0%N -> (exists h', (h', g) ∈ nodes c')) /\
        (h <> 0%N -> h = node_hash env g) /\
        (length cref <= 3 -> (forall e, e ∈ cref -> e.1 <> 0%N) -> exists h', (h', g) ∈ nodes c') /\
        cinv env pr c' (take n pend ++ [(h, g)]) /\
        (pr = Checked -> (blen (gctext (map snd cref)) <= u32_max)%N)
     | Err e => e = Panic /\ (length pend < n \/ (u32_max < blen (gctext (map snd cref)))%N)
     end).
  { intros P HP p. destruct (green_new pr a k (map snd cref)) as [g|e] eqn:Hg; simpl.
    - destruct (Hbuild g eq_refl) as (Hn&Hk&Hkids&Hwf).
      repeat (split; [done|]). split; [intros L1 L2; exfalso; by apply HP|].
      split; [|by intros ->; apply Hwf].
      assert (Hsub : forall x, x ∈ all_elems {| nodes := nodes c; tokens := tokens c; clock := S (clock c) |}
                       (take n pend ++ [(0%N, g)]) -> x = g \/ x ∈ all_elems c pend).
      { intros x Hx. rewrite elem_all_elems. apply elem_all_elems in Hx as [?|[?|[h0 Hx]]]; eauto.
        apply elem_of_app in Hx as [?%elem_of_take'|Hx]; eauto.
        apply elem_of_list_singleton in Hx as [= -> ->]. eauto. }
      constructor; try done; simpl.
      + eapply cohl_new_node; [done|exact Hi|exact Hg|].
        intros x Hx. apply Hsub in Hx as [->|?]; [by left|right; by apply live_elem].
      + intros h0 g0 [?%elem_of_take'|Hx]%elem_of_app; [by apply H4|].
        by apply elem_of_list_singleton in Hx as [= -> ->].
      + intros Hpr x Hx Hxn. apply Hsub in Hx as [->|?]; [by apply Hwf|by apply H7].
    - apply green_new_err in Hg as [-> ?]; [by auto|done]. }
  destruct (Nat.ltb_spec 3 (length cref)) as [H3l|H3l].
  { apply (Hunc (3 < length cref)); [lia|done]. }
  destruct (hash_children env (hkind env (hinit env) k) cref) as [h|] eqn:Hh.
  2:{ apply (Hunc (hash_children env (hkind env (hinit env) k) cref = None)); [|done].
      clear. generalize (hkind env (hinit env) k). induction cref as [|e cs IH]; intros h0 Hn Hl3 Hall; simpl in Hn, Hl3; [done|].
      destruct (N.eqb_spec e.1 0) as [He|]; [apply (Hall e); [left|done]|].
      eapply IH; [done|lia|]. intros; apply Hall. by right. }
  apply hash_children_node_hash in Hh as [Hh Hnz].
  2:{ intros [h0 g0] He. simpl. by apply H4, Hcref. }
  set (hash := hfin env h).
  pose proof (proj1 Henv (clock c) (nodes c) hash (node_matches k cref)) as Hp.
  assert (Hnh : forall g, gis_node g = true -> gkind g = k -> kids g = map snd cref -> node_hash env g = hash).
  { intros [a' k' tl cs|] Hn0 Hk Hkids; [|done]. simpl in Hk. subst k'.
    rewrite node_hash_node. unfold kids in Hkids. simpl in Hkids. rewrite Hkids.
    unfold hash. by rewrite Hh. }
  assert (Hlivecref : forall x, x ∈ map snd cref -> live (all_elems c pend) x).
  { intros x Hx. apply live_elem, elem_all_elems. right. right.
    apply elem_of_map in Hx as ([h0 y]&->&Hy). exists h0. by apply Hcref. }
  assert (Hkideq : forall h1 g1, (h1, g1) ∈ nodes c ->
     map gaddr (kids g1) = map gaddr (map snd cref) -> kids g1 = map snd cref).
  { intros h1 g1 Hg1 Heq. eapply cohl_map; [exact H1| |exact Hlivecref|done].
    intros x Hx. eapply live_kid; [|done]. apply live_elem, elem_all_elems. eauto. }
  destruct (probe _ _ _ _ _) as [g|] eqn:Hpr.
  - destruct Hp as [[h' Hg] Hm]. apply node_matches_spec in Hm as [Hk Hkids].
    pose proof (H2 _ _ Hg) as [Hn Hh'].
    pose proof (Hkideq _ _ Hg Hkids) as Hkids'.
    repeat (split; [done|]). cbn [tokens nodes].
    split; [by eauto|]. split; [by rewrite Hnh|]. split; [by eauto|].
    assert (Hsub : forall x, x ∈ all_elems {| nodes := nodes c; tokens := tokens c; clock := S (clock c) |}
                       (take n pend ++ [(hash, g)]) -> x ∈ all_elems c pend).
    { intros x Hx. apply elem_all_elems. apply elem_all_elems in Hx as [?|[?|[h0 Hx]]]; eauto.
      apply elem_of_app in Hx as [?%elem_of_take'|Hx]; eauto.
      apply elem_of_list_singleton in Hx as [= -> ->]. eauto. }
    split.
    + constructor; try done; simpl.
      * eapply cohl_subset; [|exact H1]. intros x Hx. by apply live_elem, Hsub.
      * intros h0 g0 [?%elem_of_take'|Hx]%elem_of_app; [by apply H4|].
        apply elem_of_list_singleton in Hx as [= -> ->]. by rewrite Hnh.
      * intros Hpr' x Hx. by apply H7, Hsub.
    + intros Hpr'. rewrite <- Hkids'. rewrite <- gtext_kids by done.
      apply wfg_bound. apply (H7 Hpr'); [|done]. apply elem_all_elems; eauto.
  - destruct (green_new pr a k (map snd cref)) as [g|e] eqn:Hgn; simpl.
    2:{ apply green_new_err in Hgn as [-> ?]; [by auto|done]. }
    destruct (Hbuild g eq_refl) as (Hn&Hk&Hkids&Hwf).
    pose proof (fun e => elem_of_table_insert env (clock c) (nodes c) hash g e Htab) as Hins.
    repeat (split; [done|]).
    split; [intros e He; apply Hins; by right|].
    assert (Hin : exists h', (h', g) ∈ table_insert env (clock c) (nodes c) hash g).
    { exists hash. apply Hins. by left. }
    split; [done|]. split; [by rewrite Hnh|]. split; [done|].
    split; [|by intros ->; apply Hwf].
    assert (Hsub : forall x, x ∈ all_elems {| nodes := table_insert env (clock c) (nodes c) hash g;
          tokens := tokens c; clock := S (clock c) |} (take n pend ++ [(hash, g)]) -> x = g \/ x ∈ all_elems c pend).
    { intros x Hx. rewrite elem_all_elems. apply elem_all_elems in Hx as [[h0 Hx]|[?|[h0 Hx]]]; eauto.
      - apply Hins in Hx as [[= -> ->]|?]; eauto.
      - apply elem_of_app in Hx as [?%elem_of_take'|Hx]; eauto.
        apply elem_of_list_singleton in Hx as [= -> ->]. eauto. }
    constructor; simpl.
    + eapply cohl_new_node; [done|exact Hi|exact Hgn|].
      intros x Hx. apply Hsub in Hx as [->|?]; [by left|right; by apply live_elem].
    + intros h0 g0 Hx. apply Hins in Hx as [[= -> ->]|?]; [by rewrite Hnh|by apply H2].
    + done.
    + intros h0 g0 [?%elem_of_take'|Hx]%elem_of_app; [by apply H4|].
      apply elem_of_list_singleton in Hx as [= -> ->]. by rewrite Hnh.
    + assert (Hno : forall h1 g1, (h1, g1) ∈ nodes c -> gkind g1 = k ->
        map gaddr (kids g1) = map gaddr (map snd cref) -> False).
      { intros h1 g1 Hg1 Hk1 Hkk. pose proof (H2 _ _ Hg1) as [Hn1 Hh1].
        rewrite (Hnh g1) in Hh1; [|done|done|by eapply Hkideq]. subst h1.
        specialize (Hp _ Hg1). enough (node_matches k cref g1 = true) by congruence.
        by apply node_matches_spec. }
      intros h1 g1 h2 g2 Hg1 Hg2 Hkk Heq.
      apply Hins in Hg1 as [[= -> ->]|Hg1]; apply Hins in Hg2 as [[= -> ->]|Hg2]; [done|..|by eapply H5].
      * exfalso. eapply Hno; [done|congruence|]. by rewrite <- Heq, Hkids.
      * exfalso. eapply Hno; [done|congruence|]. by rewrite Heq, Hkids.
    + done.
    + intros Hpr' x Hx Hxn. apply Hsub in Hx as [->|?]; [by apply Hwf|by apply H7].
Qed.
