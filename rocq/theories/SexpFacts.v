(** * Facts about the s-expression parser *)
From Verif Require Export Sexp BuilderFacts.
Local Arguments b_op : simpl never.

Section facts.
Context (env : cenv) (pr : profile).

(** proof device, no counterpart in the code *)
Definition titems (items : list tree) : list bop := concat (map tree_ops items).
Lemma titems_app a b : titems (a ++ b) = titems a ++ titems b.
Proof. unfold titems. by rewrite map_app, concat_app. Qed.

(** [f s] makes the calls that describe [items], leaves the tokens [ts'] and adds the errors [e] *)
Definition acts {A} (f : st -> res A) (mk : st -> A) (ts : list tok) (items : list tree) (ts' : list tok) (e : list serror) : Prop :=
  forall b errs, f (ST ts b errs) = b' ← b_run env pr b (titems items); Ok (mk (ST ts' b' (errs ++ e))).

(** one step of each function *)
Lemma sexp_S fuel s : sexp env pr (S fuel) s =
  s ← skip_ws env pr s;
  match p_current s with
  | None => Ok (REof, s)
  | Some t =>
      if decide (t = R_PAREN) then Ok (RRParen, s)
      else if decide (t = L_PAREN) then s ← list_node env pr fuel s; Ok (ROk, s)
      else if decide (t = WORD) then
        s ← p_op env pr s (BStartNode ATOM); s ← bump env pr s; s ← p_op env pr s BFinishNode; Ok (ROk, s)
      else if decide (t = ERROR) then s ← bump env pr s; Ok (ROk, s)
      else Err Panic
  end.
Proof. done. Qed.
Lemma list_node_S fuel s : list_node env pr (S fuel) s =
  _ ← rassert (bool_decide (p_current s = Some L_PAREN));
  s ← p_op env pr s (BStartNode LIST);
  s ← bump env pr s;
  s ← list_loop env pr fuel s;
  p_op env pr s BFinishNode.
Proof. done. Qed.
Lemma list_loop_S fuel s : list_loop env pr (S fuel) s =
  '(r, s) ← sexp env pr fuel s;
  match r with
  | REof => Ok (p_error s EExpected)
  | RRParen => bump env pr s
  | ROk => list_loop env pr fuel s
  end.
Proof. done. Qed.

Lemma p_op_eq ts b e o : p_op env pr (ST ts b e) o = b' ← b_op env pr b o; Ok (ST ts b' e).
Proof. done. Qed.
Lemma bump_acts t ts : acts (bump env pr) (fun s => s) (t :: ts) [t_tok t] ts [].
Proof.
  intros b errs. destruct t as [k s]. unfold bump. simpl. destruct (b_op env pr b (BToken k s)); simpl; [|done].
  by rewrite app_nil_r.
Qed.

Lemma skip_ws_acts ts :
  exists ws ts', ts = ws ++ ts' /\ Forall (fun t => t.1 = WHITESPACE) ws /\
    p_current (ST ts' (builder_new cache_empty) []) <> Some WHITESPACE /\ acts (skip_ws env pr) (fun s => s) ts (map t_tok ws) ts' [].
Proof.
  enough (H : forall fuel ts, length ts < fuel -> exists ws ts', ts = ws ++ ts' /\ Forall (fun t => t.1 = WHITESPACE) ws /\
    p_current (ST ts' (builder_new cache_empty) []) <> Some WHITESPACE /\ acts (skip_ws_f env pr fuel) (fun s => s) ts (map t_tok ws) ts' []).
  { destruct (H (S (length ts)) ts) as (ws&ts'&?&?&?&?); [lia|]. exists ws, ts'. by repeat split. }
  intros fuel. induction fuel as [|fuel IH]; intros ts' Hl; [lia|]. clear ts. rename ts' into ts.
  destruct ts as [|[k s] ts].
  { exists [], []. repeat split; [done..|]. intros b errs. simpl. by rewrite app_nil_r. }
  simpl in Hl. destruct (decide (k = WHITESPACE)) as [->|Hk].
  - destruct (IH ts) as (ws&ts'&->&Hw&Hc&Ha); [lia|].
    exists ((WHITESPACE, s) :: ws), ts'. split; [done|]. split; [by constructor|]. split; [done|].
    intros b errs. cbn [skip_ws_f]. unfold p_current at 1. cbn [p_toks].
    rewrite decide_True by done. rewrite (bump_acts (WHITESPACE, s)). rewrite app_nil_r.
    change (map t_tok ((WHITESPACE, s) :: ws)) with ([t_tok (WHITESPACE, s)] ++ map t_tok ws).
    rewrite titems_app, b_run_app. destruct (b_run env pr b (titems [t_tok (WHITESPACE, s)])) as [b1|]; cbn [mbind res_bind]; [|done]. by rewrite Ha, app_nil_r.
  - exists [], ((k, s) :: ts). split; [done|]. split; [done|]. split; [intros Hh; injection Hh as Hh; done|].
    intros b errs. cbn [skip_ws_f]. unfold p_current. cbn [p_toks]. rewrite decide_False by congruence.
    simpl. by rewrite app_nil_r.
Qed.

Lemma sx_run_ws ws ts cur outer errs :
  Forall (fun t => t.1 = WHITESPACE) ws ->
  sx_run cur outer errs (ws ++ ts) = sx_run (cur ++ map t_tok ws) outer errs ts.
Proof.
  intros H. revert cur. induction H as [|[k s] ws Hk H IH]; intros cur; simpl; [by rewrite app_nil_r|].
  simpl in Hk. subst k. rewrite decide_False, decide_False, decide_False by done.
  rewrite IH. by rewrite <- app_assoc.
Qed.

(** proof device, no counterpart in the code *)
Definition toks_ok (ts : list tok) : Prop := Forall (fun t => (t.1 <= 4)%N) ts.

(** what a call of [sexp] does *)
Definition sexp_spec (fuel : nat) (ts : list tok) : Prop :=
  exists r items ts' e,
    acts (sexp env pr fuel) (pair r) ts items ts' e /\ toks_ok ts' /\
    (forall cur outer E, sx_run cur outer E ts = sx_run (cur ++ items) outer (E ++ e) ts') /\
    match r with
    | ROk => length ts' < length ts
    | REof => ts' = []
    | RRParen => length ts' <= length ts /\ exists s ts'', ts' = (R_PAREN, s) :: ts''
    end.
(** proof device, no counterpart in the code *)
Definition list_spec (fuel : nat) (ts : list tok) : Prop :=
  forall s, exists items ts' e,
    acts (list_node env pr fuel) (fun s => s) ((L_PAREN, s) :: ts) [Node LIST (Token L_PAREN s :: items)] ts' e /\ toks_ok ts' /\
    (forall cur outer E, sx_run cur outer E ((L_PAREN, s) :: ts) =
       sx_run (cur ++ [Node LIST (Token L_PAREN s :: items)]) outer (E ++ e) ts') /\
    length ts' <= length ts.
(** proof device, no counterpart in the code *)
Definition loop_spec (fuel : nat) (ts : list tok) : Prop :=
  exists items ts' e,
    acts (list_loop env pr fuel) (fun s => s) ts items ts' e /\ toks_ok ts' /\
    (forall cur before outer E, sx_run cur (before :: outer) E ts =
       sx_run (before ++ [Node LIST (cur ++ items)]) outer (E ++ e) ts') /\
    length ts' <= length ts.

Lemma parser_spec n :
  (forall ts fuel, length ts <= n -> toks_ok ts -> 3 * length ts + 1 <= fuel -> sexp_spec fuel ts) /\
  (forall ts fuel, length ts < n -> toks_ok ts -> 3 * length ts + 3 <= fuel -> list_spec fuel ts) /\
  (forall ts fuel, length ts < n -> toks_ok ts -> 3 * length ts + 2 <= fuel -> loop_spec fuel ts).
Proof.
  induction n as [|n (IHs&IHn&IHl)].
  { split; [|split; intros; lia].
    intros [|] fuel Hl _ Hf; [|simpl in Hl; lia]. destruct fuel as [|fuel]; [simpl in Hf; lia|].
    exists REof, [], [], []. repeat split; [|constructor|by intros; rewrite !app_nil_r].
    intros b errs. simpl. by rewrite !app_nil_r. }
  assert (Hloop : forall ts fuel, length ts <= n -> toks_ok ts -> 3 * length ts + 2 <= fuel -> loop_spec fuel ts).
  { intros ts fuel Hl Hok Hf. destruct fuel as [|fuel]; [lia|].
    destruct (IHs ts fuel Hl Hok) as (r&items&ts1&e&Ha&Hok1&Hr&Hm); [lia|].
    destruct r; cbn in Hm.
    - destruct (IHl ts1 fuel) as (items2&ts2&e2&Ha2&Hok2&Hr2&Hl2); [lia|done|lia|].
      exists (items ++ items2), ts2, (e ++ e2). split; [|split; [done|split; [|lia]]].
      + intros b errs. rewrite list_loop_S. rewrite Ha, titems_app, b_run_app.
        destruct (b_run env pr b (titems items)); simpl; [|done]. rewrite Ha2, app_assoc. done.
      + intros. rewrite Hr, Hr2. by rewrite !app_assoc.
    - subst ts1. exists items, [], (e ++ [EExpected]). split; [|split; [done|split; [|simpl; lia]]].
      + intros b errs. rewrite list_loop_S. rewrite Ha.
        destruct (b_run env pr b (titems items)); simpl; [|done]. unfold p_error. simpl. by rewrite app_assoc.
      + intros. rewrite Hr. simpl. by rewrite !app_assoc.
    - destruct Hm as (Hm&s&ts''&->). exists (items ++ [Token R_PAREN s]), ts'', e.
      split; [|split; [|split]].
      + intros b errs. rewrite list_loop_S. rewrite Ha, titems_app, b_run_app.
        destruct (b_run env pr b (titems items)) as [a|]; simpl; [|done].
        pose proof (bump_acts (R_PAREN, s) ts'' a (errs ++ e)) as Hb. rewrite Hb. simpl. by rewrite app_nil_r.
      + by inversion Hok1.
      + intros. rewrite Hr. simpl. by rewrite !app_assoc.
      + simpl in Hm. lia. }
  assert (Hnode : forall ts fuel, length ts <= n -> toks_ok ts -> 3 * length ts + 3 <= fuel -> list_spec fuel ts).
  { intros ts fuel Hl Hok Hf s. destruct fuel as [|fuel]; [lia|].
    destruct (Hloop ts fuel Hl Hok) as (items&ts'&e&Ha&Hok'&Hr&Hl'); [lia|].
    exists items, ts', e. split; [|split; [done|split; [|done]]].
    - intros b errs. rewrite list_node_S. unfold p_current. cbn [p_toks]. rewrite bool_decide_true by done. cbn [rassert mbind res_bind].
      unfold titems. cbn [map concat tree_ops]. rewrite app_nil_r. cbn [b_run].
      rewrite p_op_eq. destruct (b_op env pr b (BStartNode LIST)) as [b1|]; cbn [mbind res_bind]; [|done].
      pose proof (bump_acts (L_PAREN, s) ts b1 errs) as Hb. rewrite Hb. unfold titems. cbn [map t_tok fst snd concat tree_ops app b_run].
      destruct (b_op env pr b1 (BToken L_PAREN s)) as [b2|]; cbn [mbind res_bind]; [|done].
      rewrite app_nil_r. rewrite Ha, b_run_app. fold (titems items).
      destruct (b_run env pr b2 (titems items)) as [b3|]; cbn [mbind res_bind]; [|done].
      rewrite p_op_eq. cbn [b_run]. by destruct (b_op env pr b3 BFinishNode).
    - intros. simpl. rewrite Hr. done. }
  split; [|split; intros; [apply Hnode|apply Hloop]; done || lia].
  intros ts fuel Hl Hok Hf. destruct fuel as [|fuel]; [lia|].
  destruct (skip_ws_acts ts) as (ws&ts1&->&Hws&Hc&Ha).
  assert (Hok1 : toks_ok ts1) by (by apply Forall_app in Hok as [_ ?]).
  rewrite app_length in *.
  destruct ts1 as [|[k s] ts1].
  { exists REof, (map t_tok ws), [], []. split; [|split; [done|split; [|done]]].
    - intros b errs. rewrite sexp_S. rewrite Ha. by destruct (b_run env pr b (titems _)).
    - intros. by rewrite sx_run_ws, app_nil_r. }
  assert (Hstep : forall b errs, sexp env pr (S fuel) (ST (ws ++ (k, s) :: ts1) b errs) =
    b' ← b_run env pr b (titems (map t_tok ws));
    let st0 := ST ((k, s) :: ts1) b' errs in
    if decide (k = R_PAREN) then Ok (RRParen, st0)
    else if decide (k = L_PAREN) then s ← list_node env pr fuel st0; Ok (ROk, s)
    else if decide (k = WORD) then
      s ← p_op env pr st0 (BStartNode ATOM); s ← bump env pr s; s ← p_op env pr s BFinishNode; Ok (ROk, s)
    else if decide (k = ERROR) then s ← bump env pr st0; Ok (ROk, s)
    else Err Panic).
  { intros b errs. rewrite sexp_S. rewrite Ha, app_nil_r. by destruct (b_run env pr b _). }
  simpl in Hl, Hf.
  destruct (decide (k = R_PAREN)) as [->|Hk1].
  { exists RRParen, (map t_tok ws), ((R_PAREN, s) :: ts1), []. split; [|split; [done|split]].
    - intros b errs. by rewrite Hstep, app_nil_r.
    - intros. by rewrite sx_run_ws, app_nil_r.
    - split; [rewrite app_length; simpl; lia|eauto]. }
  destruct (decide (k = L_PAREN)) as [->|Hk0].
  { destruct (Hnode ts1 fuel) with (s := s) as (items&ts2&e&Ha2&Hok2&Hr2&Hl2); [lia|by inversion Hok1|lia|].
    exists ROk, (map t_tok ws ++ [Node LIST (Token L_PAREN s :: items)]), ts2, e. split; [|split; [done|split; [|rewrite app_length; simpl; lia]]].
    - intros b errs. rewrite Hstep, titems_app, b_run_app.
      destruct (b_run env pr b (titems (map t_tok ws))) as [b1|]; cbn [mbind res_bind]; [|done]. rewrite Ha2.
      by destruct (b_run env pr b1 _).
    - intros. rewrite sx_run_ws by done. rewrite Hr2. by rewrite <- app_assoc. }
  destruct (decide (k = WORD)) as [->|Hk2].
  { exists ROk, (map t_tok ws ++ [Node ATOM [Token WORD s]]), ts1, []. split; [|split; [by inversion Hok1|split; [|rewrite app_length; simpl; lia]]].
    - intros b errs. rewrite Hstep, titems_app, b_run_app.
      destruct (b_run env pr b (titems (map t_tok ws))) as [b1|]; cbn [mbind res_bind]; [|done].
      unfold titems. cbn [map concat tree_ops app b_run].
      rewrite p_op_eq. destruct (b_op env pr b1 (BStartNode ATOM)) as [b2|]; cbn [mbind res_bind]; [|done].
      pose proof (bump_acts (WORD, s) ts1 b2 errs) as Hb. rewrite Hb. unfold titems. cbn [map t_tok fst snd concat tree_ops app b_run].
      destruct (b_op env pr b2 (BToken WORD s)) as [b3|]; cbn [mbind res_bind]; [|done].
      rewrite p_op_eq. by destruct (b_op env pr b3 BFinishNode).
    - intros. rewrite sx_run_ws by done. simpl. by rewrite <- app_assoc, app_nil_r. }
  assert (k = ERROR) as ->.
  { apply Forall_cons_1 in Hok1 as [Hk _]. simpl in Hk. simpl in Hc.
    unfold R_PAREN, L_PAREN, WORD, ERROR, WHITESPACE in *.
    destruct (decide (k = 4%N)); [done|]. exfalso. assert (k = 3%N) as -> by lia. done. }
  exists ROk, (map t_tok ws ++ [Token ERROR s]), ts1, []. split; [|split; [by inversion Hok1|split; [|rewrite app_length; simpl; lia]]].
  - intros b errs. rewrite Hstep, titems_app, b_run_app.
    destruct (b_run env pr b (titems (map t_tok ws))) as [b1|]; cbn [mbind res_bind]; [|done].
    pose proof (bump_acts (ERROR, s) ts1 b1 errs) as Hb. rewrite Hb. simpl. by destruct (b_op env pr b1 _).
  - intros. rewrite sx_run_ws by done. simpl. by rewrite <- app_assoc, app_nil_r.
Qed.

Lemma parse_loop_spec fuel ts :
  toks_ok ts -> length ts < fuel ->
  exists items e, acts (parse_loop env pr fuel) (fun s => s) ts items [] e /\
    (forall cur E, sx_run cur [] E ts = (Node ROOT (cur ++ items), E ++ e)).
Proof.
  revert ts. induction fuel as [|fuel IH]; intros ts Hok Hf; [lia|].
  destruct (proj1 (parser_spec (length ts)) ts (3 * length ts + 1)) as (r&items&ts1&e&Ha&Hok1&Hr&Hm); [lia|done|lia|].
  destruct r; cbn in Hm.
  - destruct (IH ts1) as (items2&e2&Ha2&Hr2); [done|lia|]. exists (items ++ items2), (e ++ e2). split.
    + intros b errs. cbn [parse_loop p_toks]. rewrite Ha, titems_app, b_run_app.
      destruct (b_run env pr b (titems items)) as [b1|]; cbn [mbind res_bind]; [|done]. by rewrite Ha2, app_assoc.
    + intros. rewrite Hr, Hr2. by rewrite !app_assoc.
  - subst ts1. exists items, e. split.
    + intros b errs. cbn [parse_loop p_toks]. rewrite Ha.
      by destruct (b_run env pr b (titems items)).
    + intros. by rewrite Hr.
  - destruct Hm as (Hm&s&ts2&->). simpl in Hm.
    destruct (IH ts2) as (items2&e2&Ha2&Hr2); [by inversion Hok1|lia|].
    exists (items ++ [Node ERROR [Token R_PAREN s]] ++ items2), (e ++ [EUnmatched] ++ e2). split.
    + intros b errs. cbn [parse_loop p_toks]. rewrite Ha, !titems_app, !b_run_app.
      destruct (b_run env pr b (titems items)) as [b1|]; cbn [mbind res_bind]; [|done].
      unfold titems at 1. cbn [map concat tree_ops app b_run].
      rewrite p_op_eq. destruct (b_op env pr b1 (BStartNode ERROR)) as [b2|]; cbn [mbind res_bind]; [|done].
      pose proof (bump_acts (R_PAREN, s) ts2 b2 ((errs ++ e) ++ [EUnmatched])) as Hb. unfold p_error. cbn [p_b p_toks p_errs]. rewrite Hb.
      unfold titems at 1. cbn [map t_tok fst snd concat tree_ops app b_run].
      destruct (b_op env pr b2 (BToken R_PAREN s)) as [b3|]; cbn [mbind res_bind]; [|done].
      rewrite p_op_eq. destruct (b_op env pr b3 BFinishNode) as [b4|]; cbn [mbind res_bind]; [|done].
      rewrite Ha2, app_nil_r. by rewrite <- !app_assoc.
    + intros. rewrite Hr. simpl. rewrite Hr2. by rewrite <- !app_assoc.
Qed.

Lemma parse_spec c ts :
  toks_ok ts ->
  is_node (sx_tree ts) = true /\
  parse env pr c ts = g ← b_build env pr c (tree_ops (sx_tree ts)); Ok (g, sx_errs ts).
Proof.
  intros Hok. destruct (parse_loop_spec (S (length ts)) ts Hok) as (items&e&Ha&Hr); [lia|].
  unfold sx_tree, sx_errs. rewrite Hr. simpl fst. simpl snd. split; [done|].
  unfold parse, b_build. cbn [tree_ops b_run app].
  rewrite p_op_eq. destruct (b_op env pr (builder_new c) (BStartNode ROOT)) as [b1|]; cbn [mbind res_bind]; [|done].
  rewrite Ha, b_run_app. unfold titems. destruct (b_run env pr b1 _) as [b2|]; cbn [mbind res_bind]; [|done].
  unfold skip_ws. cbn [p_toks length skip_ws_f]. rewrite decide_False by done. cbn [mbind res_bind].
  rewrite p_op_eq. cbn [b_run]. by destruct (b_op env pr b2 BFinishNode).
Qed.
End facts.

(** ** The stack machine keeps the tokens *)
Lemma ttokens_sx_close cur outer e :
  ttokens (sx_close cur outer e).1 = concat (map ttokens (concat (rev outer))) ++ concat (map ttokens cur).
Proof.
  revert cur e. induction outer as [|before outer IH]; intros cur e; simpl; [done|].
  rewrite IH, concat_app, !map_app, !concat_app. simpl. by rewrite !app_nil_r, app_assoc.
Qed.
Lemma ttokens_sx_run ts cur outer e :
  ttokens (sx_run cur outer e ts).1 = concat (map ttokens (concat (rev outer))) ++ concat (map ttokens cur) ++ ts.
Proof.
  revert cur outer e. induction ts as [|[k s] ts IH]; intros cur outer e; simpl.
  { by rewrite ttokens_sx_close, app_nil_r. }
  destruct (decide (k = L_PAREN)) as [->|].
  { rewrite IH. simpl. rewrite concat_app, map_app, concat_app. simpl. by rewrite app_nil_r, <- !app_assoc. }
  destruct (decide (k = R_PAREN)) as [->|].
  { destruct outer as [|before outer]; rewrite IH; simpl; rewrite ?concat_app, ?map_app, ?concat_app; simpl;
      rewrite ?map_app, ?concat_app; simpl; by rewrite ?app_nil_r, <- ?app_assoc. }
  rewrite IH. rewrite map_app, concat_app. destruct (decide (k = WORD)) as [->|]; simpl; by rewrite <- ?app_assoc.
Qed.
Lemma sx_tree_tokens ts : ttokens (sx_tree ts) = ts.
Proof. unfold sx_tree. by rewrite ttokens_sx_run. Qed.
Lemma ttokens_text t : ttext t = toks_text (ttokens t).
Proof.
  unfold toks_text. induction t as [k cs IH|k s] using tree_ind'; simpl; [|by rewrite app_nil_r].
  induction IH as [|c cs Hc _ IH]; simpl; [done|]. by rewrite Hc, IH, map_app, concat_app.
Qed.
Lemma sx_tree_text ts : ttext (sx_tree ts) = toks_text ts.
Proof. by rewrite ttokens_text, sx_tree_tokens. Qed.

(** ** Errors *)
Lemma sx_close_errs cur outer e : (sx_close cur outer e).2 = e ++ replicate (length outer) EExpected.
Proof.
  revert cur e. induction outer as [|before outer IH]; intros cur e; simpl; [by rewrite app_nil_r|].
  rewrite IH. by rewrite <- app_assoc.
Qed.
Lemma sx_run_errs ts cur outer e :
  exists e', (sx_run cur outer e ts).2 = e ++ e' /\ (e' = [] <-> paren_ok (length outer) ts = true).
Proof.
  revert cur outer e. induction ts as [|[k s] ts IH]; intros cur outer e; simpl.
  { rewrite sx_close_errs. eexists. split; [done|]. destruct outer; simpl; split; done. }
  destruct (decide (k = L_PAREN)) as [->|]; [apply (IH _ (cur :: outer))|].
  destruct (decide (k = R_PAREN)) as [->|]; [|apply IH].
  destruct outer as [|before outer]; simpl; [|apply IH].
  destruct (IH (cur ++ [Node ERROR [t_tok (R_PAREN, s)]]) [] (e ++ [EUnmatched])) as (e'&->&_).
  exists (EUnmatched :: e'). rewrite <- app_assoc. done.
Qed.

(** ** Lexing *)
(** proof device, no counterpart in the code *)
Definition lexeme (t : tok) : N * kind := (blen t.2, t.1).
Lemma lex_scan_spec text p t lexed ts :
  text = p ++ t ->
  lex_scan text (blen p) lexed = Ok ts <->
  lexed = map lexeme ts /\ toks_ok ts /\ exists q, t = toks_text ts ++ q.
Proof.
  revert p t ts. induction lexed as [|[len k] lexed IH]; intros p t ts Ht.
  { simpl. split.
    - intros [= <-]. repeat split; [constructor|by exists t].
    - intros (Hm&_). by destruct ts. }
  simpl. split.
  - destruct (N.ltb_spec 4 k) as [Hk|Hk]; [done|].
    destruct (str_slice text (blen p) (blen p + len)) as [s|] eqn:Es; [|done]. cbn [mbind res_bind].
    destruct (lex_scan text (blen p + len) lexed) as [ts'|] eqn:El; [|done]. cbn [mbind res_bind]. intros [= <-].
    apply str_slice_Ok in Es as (p'&q'&Hp&Hp1&Hp2).
    rewrite blen_app, Hp1 in Hp2. assert (blen s = len) as Hs by lia.
    assert (p' = p /\ s ++ q' = t) as [-> <-].
    { rewrite Ht in Hp. destruct (app_blen_inj _ _ _ _ Hp) as [-> ->]; done. }
    replace (blen p + len)%N with (blen (p ++ s)) in El by (rewrite blen_app; lia).
    apply (IH (p ++ s) q') in El as (->&Hok&q&->); [|by rewrite Ht, app_assoc].
    split; [simpl; unfold lexeme at 2; simpl; by rewrite Hs|]. split; [by constructor|].
    exists q. unfold toks_text. simpl. by rewrite <- app_assoc.
  - intros (Hm&Hok&q&Hq). destruct ts as [|[k' s] ts]; [done|]. injection Hm as -> -> ->. simpl in *.
    apply Forall_cons_1 in Hok as [Hk Hok]. simpl in Hk. destruct (N.ltb_spec 4 k'); [lia|].
    unfold toks_text in Hq. simpl in Hq. rewrite <- app_assoc in Hq.
    assert (str_slice text (blen p) (blen p + blen s) = Ok s) as ->.
    { apply str_slice_Ok. exists p, (concat (map snd ts) ++ q). subst text t. split; [done|]. split; [done|]. by rewrite blen_app. }
    cbn [mbind res_bind]. replace (blen p + blen s)%N with (blen (p ++ s)) by (by rewrite blen_app).
    assert (lex_scan text (blen (p ++ s)) (map lexeme ts) = Ok ts) as ->; [|done].
    apply (IH (p ++ s) (concat (map snd ts) ++ q)); [subst; by rewrite <- app_assoc|]. split; [done|]. split; [done|]. by exists q.
Qed.
Lemma lex_spec text lexed ts :
  lex text lexed = Ok ts <-> lexed = map lexeme ts /\ toks_ok ts /\ exists q, text = toks_text ts ++ q.
Proof. unfold lex. by apply (lex_scan_spec text [] text). Qed.

(** ** Evaluation *)
(** every atom is a word *)
Fixpoint atoms_ok (t : tree) : Prop :=
  match t with
  | Token _ _ => True
  | Node k cs => (k = ATOM -> exists j s, cs = [Token j s]) /\
      (fix go l := match l with [] => True | c :: l' => atoms_ok c /\ go l' end) cs
  end.
Lemma atoms_ok_node k cs : atoms_ok (Node k cs) <-> (k = ATOM -> exists j s, cs = [Token j s]) /\ Forall atoms_ok cs.
Proof.
  simpl. apply and_iff_compat_l. induction cs as [|c cs IH]; [by split|]. rewrite Forall_cons, IH. done.
Qed.
Lemma sx_close_atoms cur outer e :
  Forall atoms_ok cur -> Forall (Forall atoms_ok) outer -> atoms_ok (sx_close cur outer e).1.
Proof.
  revert cur e. induction outer as [|before outer IH]; intros cur e Hc Ho; cbn [sx_close].
  - apply atoms_ok_node. by split.
  - apply Forall_cons_1 in Ho as [Hb Ho]. apply IH; [|done]. apply Forall_app. split; [done|].
    constructor; [|constructor]. apply atoms_ok_node. by split.
Qed.
Lemma sx_run_atoms ts cur outer e :
  Forall atoms_ok cur -> Forall (Forall atoms_ok) outer -> atoms_ok (sx_run cur outer e ts).1.
Proof.
  revert cur outer e. induction ts as [|[k s] ts IH]; intros cur outer e Hc Ho; cbn [sx_run fst]; [by apply sx_close_atoms|].
  destruct (decide (k = L_PAREN)) as [->|]; [apply IH; [by repeat constructor|by constructor]|].
  destruct (decide (k = R_PAREN)) as [->|].
  { destruct outer as [|before outer].
    - apply IH; [|done]. apply Forall_app. split; [done|]. constructor; [|constructor]. apply atoms_ok_node.
      split; [done|]. by repeat constructor.
    - apply Forall_cons_1 in Ho as [Hb Ho]. apply IH; [|done]. apply Forall_app. split; [done|].
      constructor; [|constructor]. apply atoms_ok_node. split; [done|]. apply Forall_app. split; [done|]. by repeat constructor. }
  apply IH; [|done]. apply Forall_app. split; [done|]. constructor; [|constructor].
  destruct (decide (k = WORD)) as [->|]; [|done]. apply atoms_ok_node. split; [intros _; by exists WORD, s|by repeat constructor].
Qed.
Lemma sx_tree_atoms ts : atoms_ok (sx_tree ts).
Proof. by apply sx_run_atoms. Qed.

(** proof device, no counterpart in the code *)
Definition ctree (c : cursor) : tree := erase (c_green c).
Lemma at_children_erase root p c P :
  cursor_at root p = Some c ->
  forall r i l, r = drop i (tchildren (ctree c)) -> at_children root p (sel_go P i r) l ->
  map ctree l = List.filter P r.
Proof.
  intros Hc r. induction r as [|t r IH]; intros i l Hr Hl; simpl in *; [by inversion Hl|].
  assert (Ht : tchildren (ctree c) !! i = Some t) by (rewrite <- (Nat.add_0_r i), <- lookup_drop, <- Hr; done).
  assert (Hr' : r = drop (S i) (tchildren (ctree c))).
  { rewrite (drop_S _ t i Ht) in Hr. by injection Hr. }
  destruct (P t) eqn:HP; [|by eapply IH].
  inversion Hl as [|? d ? l' Hd Hl']; subst. simpl. f_equal; [|by eapply IH].
  apply cursor_at_tsub in Hd, Hc. rewrite tsub_app, Hc in Hd. cbn [mbind option_bind] in Hd.
  unfold ctree in *. destruct (erase (c_green c)) as [k cs|k s] eqn:Ec; simpl in *; [|done].
  rewrite Ht in Hd. simpl in Hd. congruence.
Qed.
Lemma c_kind_ctree c : c_kind c = tkind (ctree c).
Proof. unfold c_kind, ctree. by destruct (c_green c). Qed.
Lemma filter_map_map_comm {A B} (f : A -> B) (g : A -> option A) (h : B -> option B) l :
  (forall x, h (f x) = f <$> g x) -> map f (filter_map g l) = filter_map h (map f l).
Proof.
  intros H. induction l as [|x l IH]; simpl; [done|]. rewrite H. destruct (g x); simpl; by rewrite IH.
Qed.
Lemma filter_map_filter {A B} (P : A -> bool) (h : A -> option B) l :
  (forall x, P x = false -> h x = None) -> filter_map h (List.filter P l) = filter_map h l.
Proof.
  intros H. induction l as [|x l IH]; simpl; [done|]. destruct (P x) eqn:E; simpl; [by rewrite IH|]. by rewrite (H x E).
Qed.
Lemma sexps_spec root p c :
  wfg root -> cursor_at root p = Some c ->
  exists l, sexps c = Ok l /\ map ctree l = sub_sexps (ctree c) /\
    Forall (fun d => exists i, cursor_at root (p ++ [i]) = Some d) l.
Proof.
  intros Hwf Hc. destruct (children_at root p c Hwf Hc) as (l&Hl&Ha).
  pose proof (at_children_erase root p c is_node Hc _ 0 l eq_refl Ha) as Hm. rewrite drop_0 in Hm.
  unfold sexps. rewrite Hl. eexists. split; [done|]. split.
  - unfold sub_sexps. set (h := fun t : tree => match t with Node k _ => if ((k =? ATOM) || (k =? LIST))%N then Some t else None | Token _ _ => None end).
    rewrite <- (filter_map_filter is_node h) by (by intros []). rewrite <- Hm.
    assert (Hn : Forall (fun d => c_is_node d = true) l).
    { assert (Forall (fun t => is_node t = true) (map ctree l)) as Hf.
      { rewrite Hm. apply Forall_forall. intros x Hx%elem_of_list_In. by apply filter_In in Hx as [_ ?]. }
      rewrite Forall_fmap in Hf. eapply Forall_impl; [exact Hf|]. intros d Hd. simpl in Hd. unfold ctree in Hd.
      by rewrite erase_is_node in Hd. }
    clear -Hn. induction Hn as [|d l Hd _ IH]; cbn [filter_map map]; [done|].
    assert (h (ctree d) = if is_sexp d then Some (ctree d) else None) as ->.
    { unfold is_sexp, is_atom, is_list. rewrite c_kind_ctree. unfold c_is_node in Hd. unfold ctree.
      by destruct (c_green d). }
    destruct (is_sexp d); cbn [map]; by rewrite IH.
  - assert (Forall (fun d => exists i, cursor_at root (p ++ [i]) = Some d) l) as Hf.
    { unfold at_children in Ha. revert Ha. generalize (sel_from is_node (tchildren (erase (c_green c))) 0). intros is Ha.
      clear -Ha. induction Ha; constructor; eauto. }
    clear -Hf. induction Hf as [|d l Hd _ IH]; cbn [filter_map]; [constructor|]. destruct (is_sexp d); [by constructor|done].
Qed.
Lemma atom_text_spec c : atoms_ok (ctree c) -> tkind (ctree c) = ATOM -> is_node (ctree c) = true -> atom_text c = Ok (ttext (ctree c)).
Proof.
  intros Ha Hk Hn. unfold atom_text. unfold ctree in *. destruct (c_green c) as [a k tl cs|a k s]; simpl in *; [|done].
  destruct Ha as [Ha _]. destruct (Ha Hk) as (j&s&E). destruct cs as [|[o g] [|]]; simpl in E; try done.
  injection E as E. destruct g as [|a' k' s']; simpl in E; [done|]. injection E as -> ->. simpl. by rewrite app_nil_r.
Qed.
Lemma sub_sexps_props t : Forall (fun c => is_node c = true /\ (tkind c = ATOM \/ tkind c = LIST) /\ c ∈ tchildren t) (sub_sexps t).
Proof.
  unfold sub_sexps. generalize (fun c => elem_of_list_In (tchildren t) c) as Hin. intros _.
  assert (H : forall cs, cs ⊆ tchildren t -> Forall (fun c => is_node c = true /\ (tkind c = ATOM \/ tkind c = LIST) /\ c ∈ tchildren t)
    (filter_map (fun c => match c with Node k _ => if ((k =? ATOM) || (k =? LIST))%N then Some c else None | Token _ _ => None end) cs)).
  { induction cs as [|c cs IH]; intros Hs; cbn [filter_map]; [constructor|].
    assert (Hs' : cs ⊆ tchildren t) by (intros x Hx; apply Hs; by right).
    destruct c as [k ds|k s]; [|by apply IH]. destruct ((k =? ATOM) || (k =? LIST))%N eqn:E; [|by apply IH].
    constructor; [|by apply IH]. split; [done|]. split; [|apply Hs; by left]. simpl.
    apply orb_true_iff in E as [E|E]; apply N.eqb_eq in E; auto. }
  by apply H.
Qed.
Lemma atoms_ok_child t c : atoms_ok t -> c ∈ tchildren t -> atoms_ok c.
Proof.
  destruct t as [k cs|k s]; [|by intros _ ?%elem_of_nil]. intros [_ H]%atoms_ok_node Hc. rewrite Forall_forall in H. by apply H.
Qed.
Lemma word_op_spec s : word_op s = List.find (fun o => bool_decide (s = sop_text o)) [OAdd; OSub; OMul; ODiv].
Proof.
  assert (Hd : forall x y : str, x <> y -> bool_decide (x = y) = false) by (intros; by apply bool_decide_eq_false_2).
  destruct s as [|c [|d s]]; [done| |].
  - unfold word_op. cbn [List.find sop_text].
    destruct (decide (c = 43%N)) as [->|]; [done|]. rewrite Hd by congruence.
    destruct (decide (c = 45%N)) as [->|]; [done|]. rewrite Hd by congruence.
    destruct (decide (c = 42%N)) as [->|]; [done|]. rewrite Hd by congruence.
    destruct (decide (c = 47%N)) as [->|]; [done|]. rewrite Hd by congruence.
    repeat case_match; congruence.
  - cbn [List.find sop_text]. rewrite !Hd by congruence. unfold word_op. repeat case_match; done.
Qed.
Lemma sexp_eval_spec pr pi root fuel p c :
  wfg root -> cursor_at root p = Some c -> atoms_ok (ctree c) -> is_node (ctree c) = true ->
  (tkind (ctree c) = ATOM \/ tkind (ctree c) = LIST) ->
  sexp_eval pr pi fuel c = t_eval pr pi fuel (ctree c).
Proof.
  intros Hwf. revert p c. induction fuel as [|fuel IH]; intros p c Hc Ha Hn Hk; cbn [sexp_eval t_eval]; [done|].
  unfold is_atom at 1, is_list. rewrite !c_kind_ctree.
  destruct (N.eqb_spec (tkind (ctree c)) ATOM) as [E|E].
  { unfold atom_eval. rewrite (atom_text_spec c Ha E Hn). done. }
  destruct Hk as [|Hk]; [done|]. rewrite Hk. cbn [negb N.eqb Pos.eqb].
  destruct (sexps_spec root p c Hwf Hc) as (l&->&Hm&Hl). change (negb (LIST =? LIST)%N) with false. cbn [mbind res_bind].
  pose proof (sub_sexps_props (ctree c)) as Hsub. rewrite <- Hm in *. rewrite Forall_fmap in Hsub.
  assert (Hev : forall d, d ∈ l -> sexp_eval pr pi fuel d = t_eval pr pi fuel (ctree d)).
  { intros d Hd. rewrite Forall_forall in Hsub, Hl. destruct (Hl d Hd) as [i Hi]. destruct (Hsub d Hd) as (H1&H2&H3).
    eapply IH; [exact Hi| |done|done]. by eapply atoms_ok_child. }
  destruct l as [|op l]; cbn [map lookup list_lookup]; [done|].
  apply Forall_cons_1 in Hsub as [(Hop1&Hop2&Hop3) _].
  unfold is_atom. rewrite c_kind_ctree.
  destruct (N.eqb_spec (tkind (ctree op)) ATOM) as [Eo|Eo]; cbn [negb]; [|by destruct l].
  unfold as_op. rewrite (atom_text_spec op (atoms_ok_child _ _ Ha Hop3) Eo Hop1). cbn [mbind res_bind].
  rewrite word_op_spec. fold (t_op (ctree op)).
  destruct l as [|a l]; cbn [map]; [by destruct (t_op (ctree op))|].
  destruct (t_op (ctree op)) as [o|]; [|done].
  cbn [lookup list_lookup]. rewrite Hev by (right; left). destruct (t_eval pr pi fuel (ctree a)) as [[x|]|]; cbn [mbind res_bind]; try done.
  destruct l as [|b l]; cbn [map lookup list_lookup]; [done|]. rewrite Hev by (right; right; left).
  by destruct (t_eval pr pi fuel (ctree b)) as [[y|]|].
Qed.

(** more fuel than the size of the tree is not used *)
Lemma tsize_child t c : c ∈ tchildren t -> tsize c < tsize t.
Proof.
  destruct t as [k cs|]; [|by intros ?%elem_of_nil]. simpl. induction cs as [|d cs IH]; [by intros ?%elem_of_nil|].
  intros [->|H]%elem_of_cons; simpl; [lia|]. specialize (IH H). lia.
Qed.

(** proof device, no counterpart in the code *)
Definition not_stuck {A} (r : res A) : Prop := r <> Err UB /\ r <> Err Diverge.
Lemma op_eval_not_stuck pr o x y : not_stuck (op_eval pr o x y).
Proof. unfold op_eval, i64_div, i64_res. split; destruct o, pr; repeat case_match; done. Qed.
Lemma t_eval_not_stuck pr pi fuel t : tsize t <= fuel -> not_stuck (t_eval pr pi fuel t).
Proof.
  revert t. induction fuel as [|fuel IH]; intros t Hf; [destruct t; simpl in Hf; lia|]. cbn [t_eval].
  destruct (tkind t =? ATOM)%N; [by split|].
  pose proof (sub_sexps_props t) as Hsub. rewrite Forall_forall in Hsub.
  destruct (sub_sexps t) as [|op [|a rest]]; [by split|by split|].
  destruct (negb _); [by split|]. destruct (t_op op) as [o|]; [|by split].
  assert (Ha : not_stuck (t_eval pr pi fuel a)).
  { apply IH. destruct (Hsub a) as (_&_&H); [right; left|]. apply tsize_child in H. lia. }
  destruct (t_eval pr pi fuel a) as [[x|]|e]; cbn [mbind res_bind]; [|by split|done].
  destruct rest as [|b rest]; [by split|].
  assert (Hb : not_stuck (t_eval pr pi fuel b)).
  { apply IH. destruct (Hsub b) as (_&_&H); [right; right; left|]. apply tsize_child in H. lia. }
  destruct (t_eval pr pi fuel b) as [[y|]|e]; cbn [mbind res_bind]; [|by split|done].
  apply op_eval_not_stuck.
Qed.
Lemma eval_root_spec pr pi g :
  wfg g -> atoms_ok (erase g) -> tkind (erase g) = ROOT ->
  eval_root pr pi g = mapM_res (fun t => t_eval pr pi (tsize t) t) (sub_sexps (erase g)).
Proof.
  intros Hwf Ha Hk. unfold eval_root, new_root. change (c_kind (CRoot g)) with (gkind g).
  assert (gkind g = ROOT) as -> by (by destruct g). change (ROOT =? ROOT)%N with true. cbn [rassert mbind res_bind].
  destruct (sexps_spec g [] (CRoot g) Hwf eq_refl) as (l&->&Hm&Hl). cbn [mbind res_bind].
  change (ctree (CRoot g)) with (erase g) in Hm.
  pose proof (sub_sexps_props (erase g)) as Hsub. rewrite <- Hm in *. rewrite Forall_fmap in Hsub.
  clear Hm. induction l as [|d l IH]; cbn [mapM_res map]; [done|].
  apply Forall_cons_1 in Hl as [[i Hi] Hl], Hsub as [(H1&H2&H3) Hsub].
  rewrite (sexp_eval_spec pr pi g _ _ d Hwf Hi (atoms_ok_child _ _ Ha H3) H1 H2).
  rewrite gsize_erase. fold (ctree d). destruct (t_eval pr pi (tsize (ctree d)) (ctree d)); cbn [mbind res_bind]; [|done].
  by rewrite IH.
Qed.

(** ** Expressions *)
(** [t] is what the parser makes of a way to write [e] *)
Inductive denotes : tree -> expr -> Prop :=
| den_num s : denotes (Node ATOM [Token WORD s]) (ENum s)
| den_bin o a b ta tb cs :
    sub_sexps (Node LIST cs) = [Node ATOM [Token WORD (sop_text o)]; ta; tb] ->
    denotes ta a -> denotes tb b -> denotes (Node LIST cs) (EBin o a b).
Lemma denotes_eval pr pi t e fuel : denotes t e -> tsize t <= fuel -> t_eval pr pi fuel t = value pr pi e.
Proof.
  intros H. revert fuel. induction H as [s|o a b ta tb cs Hs Ha IHa Hb IHb]; intros fuel Hf.
  { destruct fuel as [|fuel]; [simpl in Hf; lia|]. simpl. by rewrite app_nil_r. }
  destruct fuel as [|fuel]; [simpl in Hf; lia|]. cbn [t_eval].
  pose proof (sub_sexps_props (Node LIST cs)) as Hsub. rewrite Hs in *.
  apply Forall_cons_1 in Hsub as [_ Hsub]. apply Forall_cons_1 in Hsub as [(_&_&Hta) Hsub].
  apply Forall_cons_1 in Hsub as [(_&_&Htb) _]. apply tsize_child in Hta, Htb.
  change (tkind (Node LIST cs) =? ATOM)%N with false. cbn [negb].
  change (tkind (Node ATOM [Token WORD (sop_text o)]) =? ATOM)%N with true. cbn [negb].
  assert (t_op (Node ATOM [Token WORD (sop_text o)]) = Some o) as -> by (by destruct o).
  rewrite IHa by lia. cbn [value]. destruct (value pr pi a) as [[x|]|]; cbn [mbind res_bind]; [|done..].
  rewrite IHb by lia. destruct (value pr pi b) as [[y|]|]; cbn [mbind res_bind]; [|done..].
  unfold op_eval. destruct o; try done. destruct (Z.eqb_spec y 0) as [->|]; [by rewrite decide_True|by rewrite decide_False].
Qed.
Lemma sub_sexps_trivia k w cs : trivia w -> sub_sexps (Node k (map t_tok w ++ cs)) = sub_sexps (Node k cs).
Proof. unfold sub_sexps. simpl. intros H. induction H as [|[j s] w Hj _ IH]; simpl; done. Qed.
Lemma sub_sexps_cons k t e cs : denotes t e -> sub_sexps (Node k (t :: cs)) = t :: sub_sexps (Node k cs).
Proof. unfold sub_sexps. simpl. by destruct 1. Qed.
Lemma sx_run_trivia w ts cur outer E : trivia w -> sx_run cur outer E (w ++ ts) = sx_run (cur ++ map t_tok w) outer E ts.
Proof.
  intros H. revert cur. induction H as [|[j s] w Hj _ IH]; intros cur; simpl; [by rewrite app_nil_r|]. simpl in Hj.
  rewrite decide_False, decide_False, decide_False by (destruct Hj as [-> | ->]; done). rewrite IH. by rewrite <- app_assoc.
Qed.
Lemma shown_run e l :
  shown e l -> exists t, denotes t e /\
    forall ts cur outer E, sx_run cur outer E (l ++ ts) = sx_run (cur ++ [t]) outer E ts.
Proof.
  induction 1 as [s|o a b la lb w1 w2 w3 w4 lp rp Hw1 Hw2 Hw3 Hw4 Ha (ta&Hta&IHa) Hb (tb&Htb&IHb)].
  { exists (Node ATOM [Token WORD s]). split; [constructor|]. done. }
  set (cs := map t_tok w1 ++ Node ATOM [Token WORD (sop_text o)] :: map t_tok w2 ++ ta :: map t_tok w3 ++ tb :: map t_tok w4 ++ [Token R_PAREN rp]).
  exists (Node LIST (Token L_PAREN lp :: cs)). split.
  - apply (den_bin o a b ta tb); [|done..].
    change (sub_sexps (Node LIST (Token L_PAREN lp :: cs))) with (sub_sexps (Node LIST cs)). unfold cs.
    rewrite sub_sexps_trivia by done. rewrite (sub_sexps_cons LIST _ (ENum (sop_text o))) by constructor.
    rewrite sub_sexps_trivia by done. rewrite (sub_sexps_cons LIST _ _ _ Hta).
    rewrite sub_sexps_trivia by done. rewrite (sub_sexps_cons LIST _ _ _ Htb).
    rewrite sub_sexps_trivia by done. done.
  - intros ts cur outer E. cbn [app sx_run fst]. rewrite decide_True by done.
    repeat (rewrite <- !app_assoc; cbn [app]). rewrite sx_run_trivia by done. cbn [sx_run fst].
    rewrite decide_False, decide_False, decide_True by done.
    rewrite sx_run_trivia by done. rewrite IHa. rewrite sx_run_trivia by done. rewrite IHb.
    rewrite sx_run_trivia by done. cbn [sx_run fst]. rewrite decide_False, decide_True by done.
    f_equal. f_equal. f_equal. f_equal. unfold cs, t_tok at 1. simpl. by repeat (rewrite <- !app_assoc; cbn [app]).
Qed.
Lemma shown_all_run es l :
  shown_all es l -> exists ts0, Forall2 denotes ts0 es /\
    forall cur E, exists cs, sx_run cur [] E l = (Node ROOT (cur ++ cs), E) /\ sub_sexps (Node ROOT cs) = ts0.
Proof.
  induction 1 as [w Hw|e es w l ls Hw He Hes (ts0&Hts&IH)].
  - exists []. split; [constructor|]. intros cur E. exists (map t_tok w). rewrite <- (app_nil_r w) at 1.
    rewrite sx_run_trivia by done. split; [done|]. rewrite <- (app_nil_r (map t_tok w)), sub_sexps_trivia by done. done.
  - destruct (shown_run e l He) as (t&Ht&Hrun). exists (t :: ts0). split; [by constructor|]. intros cur E.
    destruct (IH ((cur ++ map t_tok w) ++ [t]) E) as (cs&Hc&Hs). exists (map t_tok w ++ t :: cs).
    rewrite sx_run_trivia by done. rewrite Hrun, Hc. split; [by rewrite <- !app_assoc|].
    rewrite sub_sexps_trivia by done. by rewrite (sub_sexps_cons ROOT _ _ _ Ht), Hs.
Qed.
Lemma shown_eval pr pi es l g :
  shown_all es l -> wfg g -> erase g = sx_tree l ->
  sx_errs l = [] /\ eval_root pr pi g = mapM_res (value pr pi) es.
Proof.
  intros Hs Hwf Hg. destruct (shown_all_run es l Hs) as (ts0&Hd&Hrun). destruct (Hrun [] []) as (cs&Hr&Hsub).
  unfold sx_errs. rewrite Hr. split; [done|].
  assert (Hk : tkind (erase g) = ROOT) by (rewrite Hg; unfold sx_tree; by rewrite Hr).
  rewrite eval_root_spec; [|done|rewrite Hg; apply sx_tree_atoms|done].
  assert (sub_sexps (erase g) = ts0) as -> by (rewrite Hg; unfold sx_tree; rewrite Hr; done).
  clear -Hd. induction Hd as [|t e ts0 es Ht _ IH]; cbn [mapM_res]; [done|].
  rewrite (denotes_eval pr pi t e _ Ht) by done. destruct (value pr pi e); cbn [mbind res_bind]; [|done]. by rewrite IH.
Qed.
Lemma sx_tree_root ts : tkind (sx_tree ts) = ROOT.
Proof.
  unfold sx_tree. generalize (@nil tree) at 1 as cur. generalize (@nil (list tree)) as outer. generalize (@nil serror) as e.
  assert (Hc : forall outer cur e, tkind (sx_close cur outer e).1 = ROOT).
  { induction outer as [|b outer IH]; intros; simpl; [done|apply IH]. }
  induction ts as [|t ts IH]; intros e outer cur; simpl; [apply Hc|]. repeat case_match; apply IH.
Qed.
Lemma t_eval_panic pr pi fuel t : t_eval pr pi fuel t = Err Panic -> exists o x y, op_eval pr o x y = Err Panic.
Proof.
  revert t. induction fuel as [|fuel IH]; intros t; cbn [t_eval]; [done|].
  destruct (tkind t =? ATOM)%N; [done|]. destruct (sub_sexps t) as [|op [|a rest]]; [done..|].
  destruct (negb _); [done|]. destruct (t_op op) as [o|]; [|done].
  destruct (t_eval pr pi fuel a) as [[x|]|e] eqn:Ea; cbn [mbind res_bind]; [|done|intros [= ->]; by eapply IH].
  destruct rest as [|b rest]; [done|].
  destruct (t_eval pr pi fuel b) as [[y|]|e] eqn:Eb; cbn [mbind res_bind]; [|done|intros [= ->]; by eapply IH]. eauto.
Qed.
Lemma mapM_t_eval pr pi l :
  let r := mapM_res (fun t => t_eval pr pi (tsize t) t) l in
  r <> Err UB /\ r <> Err Diverge /\ (r = Err Panic -> exists o x y, op_eval pr o x y = Err Panic).
Proof.
  cbv zeta. induction l as [|t l IH]; cbn [mapM_res]; [done|].
  destruct (t_eval_not_stuck pr pi (tsize t) t) as [H1 H2]; [done|].
  destruct (t_eval pr pi (tsize t) t) as [v|e] eqn:E; cbn [mbind res_bind].
  - destruct (mapM_res _ l) as [vs|e]; cbn [mbind res_bind]; [done|]. destruct IH as (Ha&Hb&Hc).
    split; [congruence|]. split; [congruence|]. intros [= ->]. by apply Hc.
  - split; [congruence|]. split; [congruence|]. intros [= ->]. by eapply t_eval_panic.
Qed.
