(** * Facts about the arithmetic example parser *)
From Verif Require Export Math BuilderFacts.
Local Arguments b_op : simpl never.

Lemma m_leaves_of_app a b : m_leaves_of (a ++ b) = m_leaves_of a ++ m_leaves_of b.
Proof. unfold m_leaves_of. by rewrite map_app, concat_app. Qed.
Lemma m_leaves_of_toks ws : m_leaves_of (map m_tok ws) = ws.
Proof. unfold m_leaves_of. induction ws as [|[k s] ws IH]; simpl; [done|]. by rewrite IH. Qed.
Lemma m_leaves_of_cons t l : m_leaves_of (t :: l) = m_leaves t ++ m_leaves_of l.
Proof. done. Qed.
Lemma ttext_m_leaves t : ttext t = m_text (m_leaves t).
Proof.
  unfold m_text. induction t as [k cs IH|k s] using tree_ind'; simpl; [|by rewrite app_nil_r].
  induction IH as [|c cs Hc _ IH]; simpl; [done|]. by rewrite Hc, IH, map_app, concat_app.
Qed.

Section facts.
Context (env : cenv) (Henv : cenv_ok env).
Notation P := Checked.

Lemma b_op_ok b s o s' :
  binv env P b -> brel b s -> sbl_op s o = Some s' ->
  exists b', b_op env P b o = Ok b' /\ binv env P b' /\ brel b' s'.
Proof using Henv.
  intros Hi Hr Ho. pose proof (b_op_step env P b s o Henv Hi Hr) as H. unfold sbl_op in Ho.
  destruct (sb_fits s o) eqn:Hf; [|done]. destruct (b_op env P b o) as [b'|e].
  - destruct H as (s2&H&?&?&_). exists b'. rewrite Ho in H. injection H as <-. done.
  - destruct H as (_&[H|H]); congruence.
Qed.
Lemma b_op_panic b s o : binv env P b -> brel b s -> sb_fits s o = false -> b_op env P b o = Err Panic.
Proof using Henv.
  intros Hi Hr Hf. pose proof (b_op_step env P b s o Henv Hi Hr) as H. destruct (b_op env P b o) as [b'|e].
  - destruct H as (s2&_&_&_&H). rewrite Hf in H. by specialize (H eq_refl).
  - by destruct H as [-> _].
Qed.

(** proof device, no counterpart in the code *)
Definition with_items (s : sbuilder) (items : list tree) : sbuilder := {| outer := outer s; current := current s ++ items |}.
(** proof device, no counterpart in the code *)
Definition itext (items : list tree) : str := ttext (Node 0 items).
Lemma itext_app a b : itext (a ++ b) = itext a ++ itext b.
Proof. unfold itext. simpl. by rewrite map_app, concat_app. Qed.
Lemma itext_leaves items : itext items = m_text (m_leaves_of items).
Proof. unfold itext. apply (ttext_m_leaves (Node 0 items)). Qed.

(** [f], with [ts] to come, appends [items] and leaves [ts'], or panics as [items] are too long *)
Definition runs (f : mst -> res mst) (ts : list mtok) (items : list tree) (ts' : list mtok) : Prop :=
  ts = m_leaves_of items ++ ts' /\
  forall b s, binv env P b -> brel b s ->
    (exists b', f (MT ts b) = Ok (MT ts' b') /\ binv env P b' /\ brel b' (with_items s items)) \/
    (f (MT ts b) = Err Panic /\ (u32_max < blen (itext items))%N).

Lemma with_items_nil s : with_items s [] = s.
Proof. unfold with_items. rewrite app_nil_r. by destruct s. Qed.
Lemma with_items_app s a b : with_items (with_items s a) b = with_items s (a ++ b).
Proof. unfold with_items. simpl. by rewrite app_assoc. Qed.
Lemma runs_bind f g ts i1 ts1 i2 ts2 :
  runs f ts i1 ts1 -> runs g ts1 i2 ts2 -> runs (fun s => s ← f s; g s) ts (i1 ++ i2) ts2.
Proof.
  intros [-> Hf] [-> Hg]. split; [by rewrite m_leaves_of_app, <- app_assoc|]. intros b s Hi Hr.
  destruct (Hf b s Hi Hr) as [(b1&E1&Hi1&Hr1)|[E1 Hb]].
  - destruct (Hg b1 _ Hi1 Hr1) as [(b2&E2&Hi2&Hr2)|[E2 Hb]].
    + left. exists b2. rewrite E1. cbn [mbind res_bind]. rewrite E2. rewrite with_items_app in Hr2. done.
    + right. rewrite E1. cbn [mbind res_bind]. rewrite E2. split; [done|]. rewrite itext_app, blen_app. lia.
  - right. rewrite E1. split; [done|]. rewrite itext_app, blen_app. lia.
Qed.
Lemma m_op_eq ts b o : m_op env P (MT ts b) o = b' ← b_op env P b o; Ok (MT ts b').
Proof. done. Qed.
Lemma runs_bump k t ts : runs (m_bump env P) ((k, t) :: ts) [Token k t] ts.
Proof using Henv.
  split; [done|]. intros b s Hi Hr. left.
  destruct (b_op_ok b s (BToken k t) (with_items s [Token k t]) Hi Hr eq_refl) as (b'&E&?&?).
  exists b'. unfold m_bump. cbn [m_toks m_b]. by rewrite E.
Qed.
Lemma runs_bump_end : runs (m_bump env P) [] [] [].
Proof. split; [done|]. intros b s Hi Hr. left. exists b. by rewrite with_items_nil. Qed.
Lemma node_exact k f ts items ts' b s :
  runs f ts items ts' -> binv env P b -> brel b s ->
  let r := (s ← m_op env P (MT ts b) (BStartNode k); s ← f s; m_op env P s BFinishNode) in
  if (blen (itext items) <=? u32_max)%N
  then exists b', r = Ok (MT ts' b') /\ binv env P b' /\ brel b' (with_items s [Node k items])
  else r = Err Panic.
Proof using Henv.
  intros [-> Hf] Hi Hr. cbv zeta. rewrite m_op_eq.
  destruct (b_op_ok b s (BStartNode k) _ Hi Hr eq_refl) as (b1&->&Hi1&Hr1). cbn [mbind res_bind].
  destruct (Hf b1 _ Hi1 Hr1) as [(b2&->&Hi2&Hr2)|[-> Hb]]; cbn [mbind res_bind].
  2:{ by rewrite (proj2 (N.leb_gt _ _)). }
  rewrite m_op_eq. destruct (N.leb_spec (blen (itext items)) u32_max) as [Hb|Hb].
  - destruct (b_op_ok b2 _ BFinishNode (with_items s [Node k items]) Hi2 Hr2) as (b3&->&Hi3&Hr3).
    + unfold sbl_op. cbn [sb_fits with_items outer current app]. unfold itext in Hb. simpl in Hb.
      simpl. rewrite (proj2 (N.leb_le _ _)) by done. done.
    + by exists b3.
  - rewrite (b_op_panic b2 _ BFinishNode Hi2 Hr2); [done|]. apply N.leb_gt. simpl. by unfold itext in Hb.
Qed.
Lemma runs_node k f ts items ts' :
  runs f ts items ts' ->
  runs (fun s => s ← m_op env P s (BStartNode k); s ← f s; m_op env P s BFinishNode) ts [Node k items] ts'.
Proof using Henv.
  intros Hf. split; [unfold m_leaves_of; simpl; rewrite app_nil_r; apply Hf|]. intros b s Hi Hr.
  assert (Ht : itext [Node k items] = itext items) by (unfold itext; simpl; by rewrite app_nil_r).
  rewrite Ht. pose proof (node_exact k f ts items ts' b s Hf Hi Hr) as H. cbv zeta in H.
  destruct (N.leb_spec (blen (itext items)) u32_max) as [Hb|Hb]; [by left|by right].
Qed.
Lemma runs_skip ts :
  exists ws ts', ts = ws ++ ts' /\ spaces ws /\ m_next_kind ts' <> Some M_WHITESPACE /\
    runs (m_skip env P (S (length ts))) ts (map m_tok ws) ts'.
Proof using Henv.
  enough (H : forall fuel ts, length ts < fuel -> exists ws ts', ts = ws ++ ts' /\ spaces ws /\
    m_next_kind ts' <> Some M_WHITESPACE /\ runs (m_skip env P fuel) ts (map m_tok ws) ts') by (apply H; lia).
  clear ts. intros fuel. induction fuel as [|fuel IH]; intros ts Hl; [lia|].
  assert (Hstop : m_next_kind ts <> Some M_WHITESPACE -> exists ws ts', ts = ws ++ ts' /\ spaces ws /\
    m_next_kind ts' <> Some M_WHITESPACE /\ runs (m_skip env P (S fuel)) ts (map m_tok ws) ts').
  { intros Hn. exists [], ts. split; [done|]. split; [constructor|]. split; [done|]. split; [done|].
    intros b s Hi Hr. left. exists b. cbn [m_skip m_toks]. rewrite decide_False by done. by rewrite with_items_nil. }
  destruct ts as [|[k t] ts]; [by apply Hstop|].
  destruct (decide (k = M_WHITESPACE)) as [->|Hk]; [|apply Hstop; intros Hh; injection Hh as Hh; done].
  clear Hstop. simpl in Hl. destruct (IH ts) as (ws&ts'&->&Hw&Hn&Hr); [lia|].
  exists ((M_WHITESPACE, t) :: ws), ts'. split; [done|]. split; [by constructor|]. split; [done|].
  pose proof (runs_bind _ _ _ _ _ _ _ (runs_bump M_WHITESPACE t (ws ++ ts')) Hr) as Hb.
  destruct Hb as [Hb1 Hb2]. split; [done|]. intros b s Hi Hrel. cbn [m_skip m_toks m_next_kind]. rewrite decide_True by done.
  apply (Hb2 b s Hi Hrel).
Qed.

(** a function meets a grammar *)
Definition meets (f : mst -> res mst) (G : list tree -> list mtok -> Prop) : Prop :=
  forall ts, exists items ts', runs f ts items ts' /\ G items ts'.

Lemma runs_ext f g ts items ts' :
  (forall b, g (MT ts b) = f (MT ts b)) -> runs f ts items ts' -> runs g ts items ts'.
Proof. intros H [H1 H2]. split; [done|]. intros b s. rewrite H. apply H2. Qed.
Lemma runs_peek f ts ws ts' i ts2 :
  runs (m_skip env P (S (length ts))) ts (map m_tok ws) ts' ->
  runs (f (m_next_kind ts')) ts' i ts2 ->
  runs (fun s => '(t, s) ← m_peek env P s; f t s) ts (map m_tok ws ++ i) ts2.
Proof.
  intros H1 H2. destruct H1 as [-> H1], H2 as [-> H2]. split; [by rewrite m_leaves_of_app, <- app_assoc|]. intros b s Hi Hr.
  unfold m_peek. cbn [m_toks].
  destruct (H1 b s Hi Hr) as [(b1&E1&Hi1&Hr1)|[E1 Hb]].
  - rewrite E1. cbn [mbind res_bind m_toks]. destruct (H2 b1 _ Hi1 Hr1) as [(b2&E2&Hi2&Hr2)|[E2 Hb]].
    + left. exists b2. rewrite with_items_app in Hr2. done.
    + right. split; [done|]. rewrite itext_app, blen_app. lia.
  - right. rewrite E1. split; [done|]. rewrite itext_app, blen_app. lia.
Qed.
Lemma parse_val_meets : meets (m_parse_val env P) val_g.
Proof using Henv.
  intros ts. destruct (runs_skip ts) as (ws&ts1&Hts&Hw&Hn&Hs).
  set (f := fun (t : option kind) s => if decide (t = Some M_NUMBER) then m_bump env P s
    else s ← m_op env P s (BStartNode M_ERROR); s ← m_bump env P s; m_op env P s BFinishNode).
  destruct ts1 as [|[k t] ts1].
  - exists (map m_tok ws ++ [Node M_ERROR []]), []. split; [|by constructor].
    apply (runs_peek f _ _ _ _ _ Hs). apply (runs_ext (fun s => s ← m_op env P s (BStartNode M_ERROR); s ← m_bump env P s; m_op env P s BFinishNode)); [done|].
    apply runs_node, runs_bump_end.
  - destruct (decide (k = M_NUMBER)) as [->|Hk].
    + exists (map m_tok ws ++ [Token M_NUMBER t]), ts1. split; [|by constructor].
      apply (runs_peek f _ _ _ _ _ Hs). apply (runs_ext (m_bump env P)); [done|]. apply runs_bump.
    + exists (map m_tok ws ++ [Node M_ERROR [Token k t]]), ts1. split.
      * apply (runs_peek f _ _ _ _ _ Hs).
        apply (runs_ext (fun s => s ← m_op env P s (BStartNode M_ERROR); s ← m_bump env P s; m_op env P s BFinishNode)).
        { intros b. unfold f. cbn [m_next_kind]. rewrite decide_False by congruence. done. }
        apply runs_node, runs_bump.
      * apply (val_error ws (k, t)); [done|done|]. simpl. intros ->. by apply Hn.
Qed.

(** the loop, after a part [items0] of the level from the checkpoint on *)
Definition loops (f : nat -> mst -> res mst) (ts : list mtok) (items0 items : list tree) (ts' : list mtok) : Prop :=
  (exists more, ts = more ++ ts' /\ m_leaves_of items = m_leaves_of items0 ++ more) /\
  forall b s c0, binv env P b -> brel b s -> current s = c0 ++ items0 ->
    (exists b', f (sb_outer_count s + length c0) (MT ts b) = Ok (MT ts' b') /\ binv env P b' /\
       brel b' {| outer := outer s; current := c0 ++ items |}) \/
    (f (sb_outer_count s + length c0) (MT ts b) = Err Panic /\ (u32_max < blen (itext items))%N).

Lemma m_loop_meets ops next G fuel ts items0 :
  meets next G -> level ops G items0 ts -> length ts < fuel ->
  exists items ts', loops (m_loop env P fuel ops next) ts items0 items ts' /\ level_g ops G items ts'.
Proof using Henv.
  intros Hnext. revert ts items0. induction fuel as [|fuel IH]; intros ts items0 Hlev Hl; [lia|].
  destruct (runs_skip ts) as (ws&ts1&->&Hw&Hn&Hs0). destruct Hs0 as [_ Hs]. rewrite app_length in Hl.
  assert (Hpeek : forall b s c0, binv env P b -> brel b s -> current s = c0 ++ items0 ->
    exists b1, m_peek env P (MT (ws ++ ts1) b) = Ok (m_next_kind ts1, MT ts1 b1) /\ binv env P b1 /\
      brel b1 {| outer := outer s; current := c0 ++ items0 ++ map m_tok ws |} \/
    (m_peek env P (MT (ws ++ ts1) b) = Err Panic /\ (u32_max < blen (itext (map m_tok ws)))%N)).
  { intros b s c0 Hi Hr Hc. unfold m_peek. cbn [m_toks]. destruct (Hs b s Hi Hr) as [(b1&E&Hi1&Hr1)|[E Hb]].
    - exists b1. left. rewrite E. split; [done|]. split; [done|]. unfold with_items in Hr1. by rewrite Hc, <- app_assoc in Hr1.
    - exists b. right. by rewrite E. }
  destruct (match ts1 with (k, _) :: _ => bool_decide (k ∈ ops) | [] => false end) eqn:Hop.
  2:{ exists (items0 ++ map m_tok ws), ts1. split.
      - split; [exists ws; by rewrite m_leaves_of_app, m_leaves_of_toks|]. intros b s c0 Hi Hr Hc. cbn [m_loop].
        destruct (Hpeek b s c0 Hi Hr Hc) as [b1 [(E&Hi1&Hr1)|[E Hb]]].
        + left. exists b1. rewrite E. cbn [mbind res_bind]. split; [|done].
          destruct ts1 as [|[k t] ts1]; [done|]. cbn [m_next_kind]. by rewrite Hop.
        + right. rewrite E. split; [done|]. rewrite itext_app, blen_app. lia.
      - exists items0, ws. split; [done|]. split; [done|]. split; [done|]. destruct ts1 as [|[k t] ts1]; [done|].
        apply bool_decide_eq_false_1 in Hop. simpl in *. rewrite not_elem_of_cons. split; [|done]. congruence. }
  destruct ts1 as [|[k t] ts1]; [done|]. apply bool_decide_eq_true_1 in Hop.
  destruct (Hnext ts1) as (R&ts2&[Hts1 HR]&HG).
  set (node := Node M_OPERATION (items0 ++ map m_tok ws ++ Token k t :: R)).
  destruct (IH ts2 [node]) as (items&ts'&[HL1 HL2]&Hlg).
  { apply level_operation; [|done|done|done]. by rewrite <- Hts1. }
  { apply (f_equal length) in Hts1. rewrite app_length in Hts1. simpl in Hl. lia. }
  assert (Hnode : m_leaves_of [node] = m_leaves_of items0 ++ ws ++ (k, t) :: m_leaves_of R).
  { unfold node. unfold m_leaves_of at 1. cbn [map m_leaves concat]. rewrite app_nil_r.
    fold (m_leaves_of (items0 ++ map m_tok ws ++ Token k t :: R)). by rewrite !m_leaves_of_app, m_leaves_of_toks, m_leaves_of_cons. }
  destruct HL1 as (more&Hm1&Hm2).
  assert (Hle : (blen (itext [node]) <= blen (itext items))%N).
  { rewrite !itext_leaves, Hm2. unfold m_text. rewrite map_app, concat_app, blen_app. lia. }
  assert (Hit : blen (itext [node]) = (blen (itext items0) + blen (itext (map m_tok ws)) + blen t + blen (itext R))%N).
  { rewrite !itext_leaves, Hnode, m_leaves_of_toks. unfold m_text. rewrite !map_app, !concat_app, !blen_app. simpl. rewrite blen_app. lia. }
  exists items, ts'. split; [|done]. split.
  { exists (ws ++ (k, t) :: m_leaves_of R ++ more). rewrite Hts1, Hm1, Hm2, Hnode. by rewrite <- !app_assoc; cbn [app]; rewrite <- !app_assoc. }
  intros b s c0 Hi Hr Hc. set (cp := sb_outer_count s + length c0). cbn [m_loop].
  destruct (Hpeek b s c0 Hi Hr Hc) as [b1 [(E&Hi1&Hr1)|[E Hb]]]; rewrite E; cbn [mbind res_bind]; [|right; split; [done|lia]].
  cbn [m_next_kind]. rewrite bool_decide_true by done. rewrite m_op_eq.
  destruct (b_op_ok b1 _ (BStartNodeAt cp M_OPERATION)
    {| outer := (M_OPERATION, c0) :: outer s; current := items0 ++ map m_tok ws |} Hi1 Hr1) as (b2&->&Hi2&Hr2).
  { unfold sbl_op. cbn [sb_fits sb_op outer current]. change (sb_outer_count {| outer := outer s; current := _ |}) with (sb_outer_count s).
    unfold cp. rewrite app_length. rewrite (proj2 (Nat.leb_le _ _)), (proj2 (Nat.leb_le _ _)) by lia. cbn [andb].
    replace (sb_outer_count s + length c0 - sb_outer_count s) with (length c0) by lia. by rewrite take_app, drop_app. }
  cbn [mbind res_bind]. destruct (runs_bump k t ts1) as [_ Hbump].
  destruct (Hbump b2 _ Hi2 Hr2) as [(b3&->&Hi3&Hr3)|[-> Hb]]; cbn [mbind res_bind].
  2:{ right. split; [done|]. unfold itext in Hb at 1. simpl in Hb. rewrite app_nil_r in Hb. lia. }
  destruct (HR b3 _ Hi3 Hr3) as [(b4&->&Hi4&Hr4)|[-> Hb]]; cbn [mbind res_bind]; [|right; split; [done|lia]].
  rewrite m_op_eq. unfold with_items in Hr4. cbn [outer current] in Hr4.
  rewrite <- !app_assoc in Hr4. cbn [app] in Hr4.
  destruct (N.ltb_spec u32_max (blen (itext [node]))) as [Hb|Hb].
  { right. rewrite (b_op_panic b4 _ BFinishNode Hi4 Hr4); [split; [done|lia]|]. apply N.leb_gt.
    unfold itext, node in Hb. simpl in *. by rewrite app_nil_r in Hb. }
  destruct (b_op_ok b4 _ BFinishNode {| outer := outer s; current := c0 ++ [node] |} Hi4 Hr4) as (b5&->&Hi5&Hr5).
  { unfold sbl_op, itext, node in *. simpl in *. rewrite app_nil_r in Hb. by rewrite (proj2 (N.leb_le _ _)). }
  cbn [mbind res_bind]. apply (HL2 b5 _ c0 Hi5 Hr5 eq_refl).
Qed.

Lemma handle_operation_meets ops next G :
  meets next G -> meets (m_handle_operation env P ops next) (level_g ops G).
Proof using Henv.
  intros Hnext ts. destruct (Hnext ts) as (i1&ts1&[Hts H1]&HG).
  destruct (m_loop_meets ops next G (S (length ts1)) ts1 i1 Hnext) as (items&ts'&[(more&Hm1&Hm2) HL]&Hg); [by constructor|lia|].
  exists items, ts'. split; [|done]. split.
  { rewrite Hts, Hm1, Hm2. by rewrite <- app_assoc. }
  intros b s Hi Hr. unfold m_handle_operation. cbn [m_b]. unfold b_checkpoint. rewrite (brel_length _ _ Hr).
  destruct (H1 b s Hi Hr) as [(b1&->&Hi1&Hr1)|[-> Hb]]; cbn [mbind res_bind m_toks].
  - apply (HL b1 _ (current s) Hi1 Hr1 eq_refl).
  - right. split; [done|]. rewrite itext_leaves, Hm2. rewrite itext_leaves in Hb. unfold m_text in *.
    rewrite map_app, concat_app, blen_app. lia.
Qed.
Lemma parse_add_meets : meets (m_parse_add env P) add_g.
Proof using Henv. apply handle_operation_meets, handle_operation_meets, parse_val_meets. Qed.

Lemma m_parse_spec c (ts : list mtok) :
  cache_reachable env P c ->
  exists els rest, add_g els rest /\ ts = m_leaves_of els ++ rest /\
    if (blen (m_text (m_leaves_of els)) <=? u32_max)%N
    then exists g, m_parse env P c ts = Ok (CRoot g) /\ erase g = Node M_ROOT els
    else m_parse env P c ts = Err Panic.
Proof using Henv.
  intros Hc. destruct (parse_add_meets ts) as (els&rest&Hr&Hg). exists els, rest. split; [done|]. split; [apply Hr|].
  pose proof (b_reachable_inv _ _ _ Henv Hc) as Hi.
  pose proof (node_exact M_ROOT _ _ _ _ _ sb_new Hr Hi (brel_new c)) as Hn. cbv zeta in Hn. rewrite itext_leaves in Hn.
  assert (Hp : m_parse env P c ts = s ← (s ← m_op env P (MT ts (builder_new c)) (BStartNode M_ROOT);
    s ← m_parse_add env P s; m_op env P s BFinishNode); g ← b_finish (m_b s); Ok (new_root g)).
  { unfold m_parse. destruct (m_op env P _ (BStartNode M_ROOT)); cbn [mbind res_bind]; [|done].
    destruct (m_parse_add env P a); done. }
  rewrite Hp. clear Hp. destruct (N.leb_spec (blen (m_text (m_leaves_of els))) u32_max) as [Hb|Hb]; [|by rewrite Hn].
  destruct Hn as (b'&->&Hi'&Hr'). cbn [mbind res_bind m_b].
  pose proof (b_finish_erase b' _ Hr') as Hf. simpl in Hf. destruct (b_finish b') as [g|]; [|done].
  exists g. split; [done|]. by injection Hf.
Qed.
End facts.

(** ** The grammar says exactly one thing about every token sequence *)
(** proof device, no counterpart in the code *)
Definition deterministic (G : list tree -> list mtok -> Prop) : Prop :=
  forall L1 L2 r1 r2, G L1 r1 -> G L2 r2 -> m_leaves_of L1 ++ r1 = m_leaves_of L2 ++ r2 -> L1 = L2 /\ r1 = r2.
Lemma spaces_split ws1 ws2 r1 r2 :
  spaces ws1 -> spaces ws2 -> not_next [M_WHITESPACE] r1 -> not_next [M_WHITESPACE] r2 ->
  ws1 ++ r1 = ws2 ++ r2 -> ws1 = ws2 /\ r1 = r2.
Proof.
  intros H1. revert ws2. induction H1 as [|t ws1 Ht H1 IH]; intros ws2 H2 Hn1 Hn2 E; simpl in *.
  - destruct H2 as [|t2 ws2 Ht2 H2]; [done|]. subst r1. simpl in Hn1. rewrite Ht2 in Hn1. exfalso. apply Hn1. left.
  - destruct H2 as [|t2 ws2 Ht2 H2]; simpl in E.
    + subst r2. simpl in Hn2. rewrite Ht in Hn2. exfalso. apply Hn2. left.
    + injection E as -> E. destruct (IH ws2 H2 Hn1 Hn2 E) as [-> ->]. done.
Qed.
(** the tokens a value starts with, after the white space *)
Lemma val_g_inv L r : val_g L r -> exists ws rest, spaces ws /\ not_next [M_WHITESPACE] rest /\ m_leaves_of L ++ r = ws ++ rest /\
  match rest with
  | [] => L = map m_tok ws ++ [Node M_ERROR []] /\ r = []
  | t :: rest' => L = map m_tok ws ++ [if decide (t.1 = M_NUMBER) then m_tok t else Node M_ERROR [m_tok t]] /\ r = rest'
  end.
Proof.
  intros [ws s rest Hw|ws [k s] rest Hw Hn Hs|ws Hw].
  - exists ws, ((M_NUMBER, s) :: rest). split; [done|]. split; [by apply not_elem_of_cons; split; [done|apply not_elem_of_nil]|].
    rewrite m_leaves_of_app, m_leaves_of_toks, <- app_assoc. done.
  - exists ws, ((k, s) :: rest). split; [done|]. split; [apply not_elem_of_cons; split; [done|apply not_elem_of_nil]|].
    rewrite m_leaves_of_app, m_leaves_of_toks, <- app_assoc. split; [done|]. simpl in *. by rewrite decide_False.
  - exists ws, []. rewrite m_leaves_of_app, m_leaves_of_toks, <- app_assoc. done.
Qed.
Lemma val_g_det : deterministic val_g.
Proof.
  intros L1 L2 r1 r2 H1 H2 E. apply val_g_inv in H1 as (ws1&q1&Hw1&Hn1&E1&H1), H2 as (ws2&q2&Hw2&Hn2&E2&H2).
  rewrite E1, E2 in E. destruct (spaces_split _ _ _ _ Hw1 Hw2 Hn1 Hn2 E) as [-> ->].
  destruct q2 as [|t q2]; destruct H1 as [-> ->], H2 as [-> ->]; done.
Qed.
(** a level from left to right: an operand, then operators with operands *)
Inductive chain (ops : list kind) (G : list tree -> list mtok -> Prop) : list tree -> list mtok -> list tree -> list mtok -> Prop :=
| chain_end L r : chain ops G L r L r
| chain_step L ws o s R r L' r' :
    spaces ws -> o ∈ ops -> G R r ->
    chain ops G [Node M_OPERATION (L ++ map m_tok ws ++ Token o s :: R)] r L' r' ->
    chain ops G L (ws ++ (o, s) :: m_leaves_of R ++ r) L' r'.
Lemma chain_snoc ops G L r L1 ws o s R r1 :
  chain ops G L r L1 (ws ++ (o, s) :: m_leaves_of R ++ r1) -> spaces ws -> o ∈ ops -> G R r1 ->
  chain ops G L r [Node M_OPERATION (L1 ++ map m_tok ws ++ Token o s :: R)] r1.
Proof.
  intros H Hw Ho HG. remember (ws ++ (o, s) :: m_leaves_of R ++ r1) as q eqn:Hq. induction H as [L r|L ws0 o0 s0 R0 r L' r' ? ? ? ? IH].
  - subst r. eapply chain_step; [done|done|done|constructor].
  - eapply chain_step; [done|done|done|]. by apply IH.
Qed.
Lemma level_chain ops G L r : level ops G L r -> exists L0 r0, G L0 r0 /\ chain ops G L0 r0 L r.
Proof.
  induction 1 as [L r H|L ws o s R r Hl (L0&r0&HG&Hch) Hw Ho HR].
  - exists L, r. split; [done|constructor].
  - exists L0, r0. split; [done|]. by eapply chain_snoc.
Qed.
Lemma chain_leaves ops G L r L' r' : chain ops G L r L' r' -> m_leaves_of L ++ r = m_leaves_of L' ++ r'.
Proof.
  induction 1 as [|L ws o s R r L' r' _ _ _ _ IH]; [done|]. rewrite <- IH. unfold m_leaves_of at 3. cbn [map m_leaves concat].
  rewrite app_nil_r. fold (m_leaves_of (L ++ map m_tok ws ++ Token o s :: R)).
  rewrite !m_leaves_of_app, m_leaves_of_toks, m_leaves_of_cons. cbn [m_leaves app]. by rewrite <- !app_assoc.
Qed.
Lemma chain_det ops G L r L1 L2 r1 r2 ws1 ws2 :
  deterministic G -> M_WHITESPACE ∉ ops -> spaces ws1 -> spaces ws2 ->
  not_next (M_WHITESPACE :: ops) r1 -> not_next (M_WHITESPACE :: ops) r2 ->
  chain ops G L r L1 (ws1 ++ r1) -> chain ops G L r L2 (ws2 ++ r2) -> L1 = L2 /\ ws1 = ws2 /\ r1 = r2.
Proof.
  intros HG Hws Hw1 Hw2 Hn1 Hn2 H1 H2.
  assert (Hnx : forall r, not_next (M_WHITESPACE :: ops) r -> not_next [M_WHITESPACE] r /\ not_next ops r).
  { intros [|t r']; [done|]. simpl. rewrite !not_elem_of_cons. intros [? ?]. repeat split; [done|apply not_elem_of_nil|done]. }
  assert (Hop : forall o s r, o ∈ ops -> not_next [M_WHITESPACE] ((o, s) :: r)).
  { intros o s r' Ho. simpl. apply not_elem_of_cons. split; [by intros ->|apply not_elem_of_nil]. }
  destruct (Hnx _ Hn1) as [Hn1a Hn1b], (Hnx _ Hn2) as [Hn2a Hn2b].
  remember (ws1 ++ r1) as q1 eqn:Hq1. induction H1 as [L r|L ws o s R r L' r' Hw Ho HR H1 IH].
  - subst r. inversion H2 as [? ? E1 E2|? ws o s R r ? ? Hw Ho HR Hch E1 E2]; subst.
    + destruct (spaces_split _ _ _ _ Hw1 Hw2 Hn1a Hn2a) as [-> ->]; done.
    + destruct (spaces_split ws ws1 ((o, s) :: m_leaves_of R ++ r) r1 Hw Hw1 (Hop o s _ Ho) Hn1a E2) as [E3 E4]. rewrite <- E4 in Hn1b. by simpl in Hn1b.
  - specialize (IH Hq1). inversion H2 as [? ? E1 E2|? ws' o' s' R' r0 ? ? Hw' Ho' HR' Hch E1 E2]; subst.
    + destruct (spaces_split ws ws2 ((o, s) :: m_leaves_of R ++ r) r2 Hw Hw2 (Hop o s _ Ho) Hn2a) as [E3 E4]; [done|]. rewrite <- E4 in Hn2b. by simpl in Hn2b.
    + destruct (spaces_split _ _ _ _ Hw' Hw (Hop o' s' _ Ho') (Hop o s _ Ho) E2) as [-> E]. injection E as -> -> E.
      destruct (HG _ _ _ _ HR' HR E) as [-> ->]. by apply IH.
Qed.
Lemma level_g_det ops G : M_WHITESPACE ∉ ops -> deterministic G -> deterministic (level_g ops G).
Proof.
  intros Hws HG E1 E2 r1 r2 (L1&ws1&->&H1&Hw1&Hn1) (L2&ws2&->&H2&Hw2&Hn2) E.
  apply level_chain in H1 as (A1&q1&HA1&H1), H2 as (A2&q2&HA2&H2).
  rewrite !m_leaves_of_app, !m_leaves_of_toks, <- !app_assoc in E.
  rewrite <- (chain_leaves _ _ _ _ _ _ H1), <- (chain_leaves _ _ _ _ _ _ H2) in E.
  destruct (HG _ _ _ _ HA1 HA2 E) as [-> ->].
  destruct (chain_det ops G _ _ _ _ _ _ _ _ HG Hws Hw1 Hw2 Hn1 Hn2 H1 H2) as (->&->&->). done.
Qed.
Lemma add_g_det : deterministic add_g.
Proof.
  apply level_g_det; [by rewrite !not_elem_of_cons; repeat split; [done..|apply not_elem_of_nil]|].
  apply level_g_det; [by rewrite !not_elem_of_cons; repeat split; [done..|apply not_elem_of_nil]|]. apply val_g_det.
Qed.

(** ** Well-formed input is consumed completely *)
Lemma wants_op_spaces ws r : spaces ws -> wants_op (ws ++ r) = wants_op r.
Proof. induction 1 as [|t ws Ht _ IH]; simpl; [done|]. by rewrite decide_True. Qed.
Lemma wants_val_spaces ws r : spaces ws -> wants_val (ws ++ r) = wants_val r.
Proof. induction 1 as [|t ws Ht _ IH]; simpl; [done|]. by rewrite decide_True. Qed.
(** proof device, no counterpart in the code *)
Definition well (G : list tree -> list mtok -> Prop) : Prop :=
  forall L r, G L r -> wants_val (m_leaves_of L ++ r) = true -> wants_op r = true /\ forallb m_no_error L = true.
Lemma no_error_toks ws : forallb m_no_error (map m_tok ws) = true.
Proof. by induction ws. Qed.
Lemma val_g_well : well val_g.
Proof.
  intros L r H Hv. apply val_g_inv in H as (ws&rest&Hw&Hn&E&H). rewrite E, wants_val_spaces in Hv by done.
  destruct rest as [|t rest]; [done|]. destruct H as [-> ->]. simpl in Hv, Hn.
  rewrite not_elem_of_cons in Hn. destruct Hn as [Hn _]. rewrite decide_False in Hv by done.
  apply andb_true_iff in Hv as [Hv1 Hv2]. apply bool_decide_eq_true_1 in Hv1. split; [done|].
  rewrite forallb_app, no_error_toks, decide_True by done. done.
Qed.
Lemma level_well ops G : (forall o, o ∈ ops -> o ∈ m_ops) -> well G -> well (level ops G).
Proof.
  intros Hops HG L r H. induction H as [L r H|L ws o s R r Hl IH Hw Ho HR]; [by apply HG|]. intros Hv.
  destruct IH as [IH1 IH2].
  { rewrite <- Hv. f_equal. unfold m_leaves_of at 3. cbn [map m_leaves concat].
    rewrite app_nil_r. fold (m_leaves_of (L ++ map m_tok ws ++ Token o s :: R)).
    rewrite !m_leaves_of_app, m_leaves_of_toks, m_leaves_of_cons. cbn [m_leaves app]. by rewrite <- !app_assoc. }
  rewrite wants_op_spaces in IH1 by done. simpl in IH1.
  destruct (decide (o = M_WHITESPACE)) as [->|]; [exfalso; apply Hops in Ho; unfold m_ops in Ho; rewrite !elem_of_cons, elem_of_nil in Ho; naive_solver|].
  apply andb_true_iff in IH1 as [_ Hval]. destruct (HG R r HR Hval) as [H1 H2]. split; [done|].
  cbn [forallb m_no_error]. rewrite !forallb_app, IH2, no_error_toks. simpl. by rewrite H2.
Qed.
Lemma level_g_well ops G : (forall o, o ∈ ops -> o ∈ m_ops) -> well G -> well (level_g ops G).
Proof.
  intros Hops HG E r (L&ws&->&H&Hw&_) Hv. rewrite m_leaves_of_app, m_leaves_of_toks, <- app_assoc in Hv.
  destruct (level_well ops G Hops HG L _ H Hv) as [H1 H2]. rewrite wants_op_spaces in H1 by done. split; [done|].
  by rewrite forallb_app, H2, no_error_toks.
Qed.
Lemma level_last ops G L r : level ops G L r -> exists R, G R r.
Proof. destruct 1; eauto. Qed.
Lemma add_g_next L r : add_g L r -> not_next (M_WHITESPACE :: m_ops) r.
Proof.
  intros (L0&ws&->&H&Hw&Hn). apply level_last in H as (R&L1&ws1&->&_&_&Hn1).
  destruct Hw as [|t ws Ht Hw].
  - destruct r as [|t r]; [done|]. simpl in *. unfold m_ops. rewrite !not_elem_of_cons in *. destruct Hn1 as (?&?&?&?), Hn as (?&?&?&?). done.
  - simpl in Hn1. rewrite not_elem_of_cons in Hn1. by destruct Hn1.
Qed.
Lemma add_g_well L r : add_g L r -> wants_val (m_leaves_of L ++ r) = true -> r = [] /\ forallb m_no_error L = true.
Proof.
  intros H Hv. assert (Hw : well add_g).
  { apply level_g_well; [intros o; unfold m_ops; rewrite !elem_of_cons; naive_solver|].
    apply level_g_well; [intros o; unfold m_ops; rewrite !elem_of_cons; naive_solver|]. apply val_g_well. }
  destruct (Hw L r H Hv) as [H1 H2]. split; [|done]. apply add_g_next in H. destruct r as [|t r]; [done|].
  exfalso. simpl in H, H1. apply not_elem_of_cons in H as [Ha Hb]. rewrite decide_False in H1 by done.
  apply andb_true_iff in H1 as [H1 _]. by apply bool_decide_eq_true_1 in H1.
Qed.
