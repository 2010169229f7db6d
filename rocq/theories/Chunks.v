(** * Chunks of a text, range arguments of [slice], and [Display] of green trees

    [try_for_each_chunk] and [for_each_chunk] (src/syntax_text.rs:90-106) take closures that
    may change what they capture: here a closure gets a state and returns the next one, also
    when it stops.  [Display] of a text (133-137) and of green trees (src/green/node.rs:97-110,
    src/green/token.rs:76-87) with a writer that may fail, as in Fmt.v. *)
From Verif Require Export TextFacts FmtFacts.

(** syntax_text.rs:90-95 [try_for_each_chunk]: [try_fold_chunks((), move |(), chunk| f(chunk))];
    the accumulator of the model holds what the closure captures *)
Definition try_for_each_chunk {S E} (t : stext) (f : S -> str -> res (S * option E)) (s : S) : res (S * option E) :=
  r ← try_fold_chunks t s (fun s chunk =>
        '(s', o) ← f s chunk; Ok (match o with None => inl s' | Some e => inr (s', e) end));
  Ok (match r with inl s' => (s', None) | inr (s', e) => (s', Some e) end).
(** syntax_text.rs:97-106 [for_each_chunk]: the error type is empty *)
Definition for_each_chunk {S} (t : stext) (f : S -> str -> res S) (s : S) : res S :=
  '(s', _) ← @try_for_each_chunk S Empty_set t (fun s chunk => s' ← f s chunk; Ok (s', None)) s; Ok s'.
(** syntax_text.rs:120-125 [found] *)
Definition found {T} (r : option T) : option T := r.

(** syntax_text.rs:213-267: what [slice] can be given *)
Inductive text_arg := ATextRange (r : range) | ARange (a b : N) | AFrom (a : N) | ATo (b : N) | AFull.
(** syntax_text.rs:223-263 [start] *)
Definition arg_start (r : text_arg) : option N :=
  match r with
  | ATextRange r => Some (rstart r) | ARange a _ => Some a | AFrom a => Some a | ATo _ => None | AFull => None
  end.
(** syntax_text.rs:223-263 [end] *)
Definition arg_end (r : text_arg) : option N :=
  match r with
  | ATextRange r => Some (rend r) | ARange _ b => Some b | AFrom _ => None | ATo b => Some b | AFull => None
  end.
(** syntax_text.rs:59-80 [slice] *)
Definition st_slice_arg (pr : profile) (t : stext) (r : text_arg) : res stext := st_slice pr t (arg_start r) (arg_end r).

Section display.
  Variable sink : str -> str -> option nat.
  (** syntax_text.rs:133-137 [Display for SyntaxText]: [fmt::Display::fmt(chunk, f)] with the
      options of [f]; the state is the text written so far *)
  Definition st_display (o : fopts) (t : stext) (out : str) : fres :=
    '(out, e) ← try_for_each_chunk t (fun out chunk =>
       '(ok, out) ← wstr sink (pad o chunk) out; Ok (out, if ok : bool then None else Some Datatypes.tt)) out;
    Ok (match e with None => true | Some _ => false end, out).

  (** green/token.rs:83-87 and through it 76-81 [Display for GreenToken]: [write!(f, "{}", ..)]
      makes a new formatter without options *)
  Definition green_token_display (o : fopts) (s : str) : str -> fres := wstr sink (pad fo_default s).
  (** green/node.rs:104-111 and through it 97-102; [Display for NodeOrToken]
      (utility_types.rs:53-60) forwards *)
  Fixpoint green_fmt (o : fopts) (g : green) (out : str) : fres :=
    match g with
    | GTok _ _ s => green_token_display o s out
    | GNode _ _ _ cs =>
        (fix go (cs : list (N * green)) (out : str) : fres :=
           match cs with
           | [] => Ok (true, out)
           | c :: cs' => wseq (green_fmt fo_default c.2) (go cs') out
           end) cs out
    end.
End display.

(** ** Specification *)
(** specification: the bounds of a range argument on a text of length [len] *)
Definition arg_bounds (r : text_arg) (len : N) : N * N :=
  match r with
  | ATextRange (TR a b) | ARange a b => (a, b)
  | AFrom a => (a, len)
  | ATo b => (0%N, b)
  | AFull => (0%N, len)
  end.
(** specification: a closure called on strings in turn until it stops *)
Fixpoint visit {S E} (f : S -> str -> res (S * option E)) (s : S) (l : list str) : res (S * option E) :=
  match l with
  | [] => Ok (s, None)
  | x :: l' => '(s', o) ← f s x; match o with None => visit f s' l' | Some e => Ok (s', Some e) end
  end.
(** specification: a closure that cannot stop called on strings in turn *)
Fixpoint visit_all {S} (f : S -> str -> res S) (s : S) (l : list str) : res S :=
  match l with [] => Ok s | x :: l' => s' ← f s x; visit_all f s' l' end.
(** specification: the token at [q] meets or touches the bytes from [a] to [b] *)
Definition meets (root : tree) (a b : N) (q : pos) : bool :=
  match trange root q with Some (s, e) => (N.max a s <=? N.min b e)%N | None => false end.
(** specification: [ch] is the part of the token at [q] between bytes [a] and [b] of the whole text *)
Definition part_of (root : tree) (a b : N) (q : pos) (ch : str) : Prop :=
  exists k s x y, tsub root q = Some (Token k s) /\ trange root q = Some (x, y) /\
    is_slice s (N.max a x - x) (N.min b y - x) ch.

(** ** Facts *)
Section facts.
Local Open Scope N_scope.

Lemma visit_sfold {S E} (f : S -> str -> res (S * option E)) s cs :
  (r ← sfold (fun s chunk => '(s', o) ← f s chunk; Ok (match o with None => inl s' | Some e => inr (s', e) end)) s cs;
   Ok (match r with inl s' => (s', None) | inr (s', e) => (s', Some e) end)) = visit f s cs.
Proof.
  revert s. induction cs as [|x cs IH]; intros s; simpl; [done|]. destruct (f s x) as [[s' [e|]]|]; simpl; [done| |done]. apply IH.
Qed.
Lemma visit_never {S E} (f : S -> str -> res S) s cs :
  visit (fun s ch => s' ← f s ch; Ok (s', @None E)) s cs = (s' ← visit_all f s cs; Ok (s', None)).
Proof. revert s. induction cs as [|x cs IH]; intros s; simpl; [done|]. destruct (f s x) as [s'|]; simpl; [apply IH|done]. Qed.
Lemma try_fold_cut {T E} (f : T -> str -> res (T + E)) acc its e :
  mapM chunk_text its = Err e ->
  exists its1 x its2 cs, its = its1 ++ x :: its2 /\ mapM chunk_text its1 = Ok cs /\ chunk_text x = Err e /\
    try_fold f acc its = (r ← sfold f acc cs; match r with inl _ => Err e | inr e => Ok (inr e) end).
Proof.
  revert acc. induction its as [|x its IH]; intros acc; simpl; [done|]. destruct (chunk_text x) as [s|e'] eqn:Ex; simpl.
  - intros [H|(cs&Hc&[=])]%res_bind_err. destruct (f acc s) as [[acc'|e'']|e''] eqn:Ef; simpl.
    + destruct (IH acc' H) as (its1&y&its2&cs&->&H1&H2&H3). exists (x :: its1), y, its2, (s :: cs). simpl. rewrite Ex. simpl. rewrite H1. simpl.
      split; [done|]. split; [done|]. split; [done|]. rewrite Ef. simpl. done.
    + destruct (IH acc H) as (its1&y&its2&cs&->&H1&H2&H3). exists (x :: its1), y, its2, (s :: cs). simpl. rewrite Ex. simpl. rewrite H1. simpl.
      split; [done|]. split; [done|]. split; [done|]. by rewrite Ef.
    + destruct (IH acc H) as (its1&y&its2&cs&->&H1&H2&H3). exists (x :: its1), y, its2, (s :: cs). simpl. rewrite Ex. simpl. rewrite H1. simpl.
      split; [done|]. split; [done|]. split; [done|]. by rewrite Ef.
  - intros [= ->]. exists [], x, its, []. simpl. split; [done|]. split; [done|]. by split.
Qed.

(** the items of [tokens_with_ranges] are the tokens that meet the range, with their parts *)
Definition item_at (root : tree) (a b : N) (q : pos) (it : cursor * range) : Prop :=
  exists k s x y, tsub root q = Some (Token k s) /\ trange root q = Some (x, y) /\
    chunk_text it = str_slice s (N.max a x - x) (N.min b y - x).
Lemma item_part root a b q it ch : item_at root a b q it -> chunk_text it = Ok ch <-> part_of root a b q ch.
Proof.
  intros (k&s&x&y&H1&H2&->). rewrite <- is_slice_iff. split.
  - intros H. by exists k, s, x, y.
  - intros (k'&s'&x'&y'&H1'&H2'&H). congruence.
Qed.
Lemma items_at root p c a b : wfg root -> coherent root -> cursor_at root p = Some c ->
  exists its, tokens_with_ranges (ST c (TR a b)) = Ok its /\
    Forall2 (item_at (erase root) a b) (List.filter (meets (erase root) a b) (map (app p) (token_positions (erase (c_green c))))) its.
Proof.
  intros Hwf Hco Hc. destruct (descendants_with_tokens_at root p c Hwf Hco Hc) as (l&Hl&Hf).
  unfold tokens_with_ranges. simpl. rewrite Hl. simpl. unfold token_positions. clear Hl.
  pose proof (cursor_at_tsub _ _ _ Hc) as Hts. set (t := erase (c_green c)) in *.
  induction Hf as [|q d ps ds Hd Hf IH]; simpl; [by exists []|]. destruct IH as (its&Hi&HF).
  assert (tsub t q = Some (erase (c_green d))) as Hq.
  { pose proof (cursor_at_tsub _ _ _ Hd) as Hx. rewrite tsub_app, Hts in Hx. exact Hx. }
  rewrite Hq. assert (c_is_node d = gis_node (c_green d)) as En by done. rewrite En.
  destruct (c_green d) as [a' k tl cs|a' k s] eqn:Eg; simpl; [by exists its|]. simpl in En.
  rewrite (twr_ok root Hwf a b d) by (done || by exists (p ++ q)). rewrite Hi. simpl.
  assert (token_text d = s) as -> by (unfold token_text; by rewrite Eg).
  pose proof (cursor_at_off root Hwf _ _ Hd) as Ho.
  assert (trange (erase root) (p ++ q) = Some (c_offset d, c_offset d + blen s)) as Hr.
  { unfold trange. rewrite tsub_app, Hts. simpl. rewrite Hq. simpl. by rewrite <- Ho. }
  unfold meets at 1. rewrite Hr.
  destruct (N.ltb_spec (N.min b (c_offset d + blen s)) (N.max a (c_offset d))), (N.leb_spec (N.max a (c_offset d)) (N.min b (c_offset d + blen s))); try lia.
  - by exists its.
  - eexists. split; [done|]. constructor; [|done]. exists k, s, (c_offset d), (c_offset d + blen s).
    split; [by rewrite tsub_app, Hts|]. split; [done|]. unfold chunk_text. simpl. unfold token_text. by rewrite Eg.
Qed.
Lemma items_ok root a b qs its cs : Forall2 (item_at root a b) qs its -> mapM chunk_text its = Ok cs -> Forall2 (part_of root a b) qs cs.
Proof.
  intros H. revert cs. induction H as [|q it qs its Hq _ IH]; intros cs; simpl; [by intros [= <-]|].
  intros (s&Hs&(cs'&Hc&[= <-])%res_bind_ok)%res_bind_ok. constructor; [by apply (item_part _ _ _ _ _ _ Hq)|by apply IH].
Qed.

(** ** Green display *)
Lemma wpieces_app sink l1 l2 out : wpieces sink (l1 ++ l2) out = wseq (wpieces sink l1) (wpieces sink l2) out.
Proof.
  revert out. induction l1 as [|s l1 IH]; intros out; simpl; [done|]. unfold wseq in *. destruct (wstr sink s out) as [[[] o]|]; simpl; [|done..].
  by rewrite IH.
Qed.
Lemma green_fmt_pieces sink o g out : green_fmt sink o g out = wpieces sink (token_texts (erase g)) out.
Proof.
  revert o out. induction g as [a k tl cs IH|a k s] using green_ind'; intros o out; simpl.
  - revert out. induction cs as [|[x g] cs IHcs]; intros out; [done|]. apply Forall_cons in IH as [Hg IH]. simpl in *.
    rewrite wpieces_app. unfold wseq. rewrite Hg. destruct (wpieces sink (token_texts (erase g)) out) as [[[] o']|]; simpl; [|done..].
    apply (IHcs IH).
  - unfold green_token_display, pad. simpl. unfold wseq. by destruct (wstr sink s out) as [[[] ?]|].
Qed.
Lemma display_events_pieces sink o root p t w evs out : tsub (erase root) p = Some t ->
  Forall2 (ev_at root p) w evs ->
  display_events sink o evs out = wpieces sink (map (pad o) (filter_map (tok_text t)
    (filter_map (fun e => match e with Enter q => Some q | Leave _ => None end) w))) out.
Proof.
  intros Ht HF. revert out. induction HF as [|e e' w evs He _ IH]; intros out; simpl; [done|].
  destruct e as [q|q], e' as [c|c]; try done; simpl.
  simpl in He. pose proof (cursor_at_tsub _ _ _ He) as Hs. rewrite tsub_app, Ht in Hs. simpl in Hs.
  unfold tok_text at 1. rewrite Hs. unfold c_is_node. destruct (c_green c) as [|a k s] eqn:E; simpl; [done|].
  unfold wseq, display_token, c_text. rewrite E. destruct (wstr sink (pad o s) out) as [[[] out']|]; simpl; [apply IH|done..].
Qed.
Lemma display_node_pieces sink o root p c out :
  wfg root -> coherent root -> cursor_at root p = Some c ->
  display_node sink o c out = wpieces sink (map (pad o) (token_texts (erase (c_green c)))) out.
Proof.
  intros Hwf Hco Hc. destruct (preorder_wt_all root p c Hwf Hco Hc) as (evs&Hy&HF).
  unfold display_node. rewrite (display_loop_events sink o _ evs) by (done || eapply walk_fuel, HF).
  rewrite (display_events_pieces sink o root p _ _ _ out (cursor_at_tsub _ _ _ Hc) HF).
  by rewrite enter_twalk, token_texts_positions.
Qed.
Lemma visit_pieces sink o cs out :
  ('(out, e) ← visit (fun out chunk =>
       '(ok, out) ← wstr sink (pad o chunk) out; Ok (out, if ok : bool then None else Some Datatypes.tt)) out cs;
    Ok (match e with None => true | Some _ => false end, out)) = wpieces sink (map (pad o) cs) out.
Proof.
  revert out. induction cs as [|x cs IH]; intros out; simpl; [done|]. unfold wseq.
  destruct (wstr sink (pad o x) out) as [[[] out']|]; simpl; [apply IH|done..].
Qed.
Lemma wpieces_writes sink l : writes sink (wpieces sink l) (concat l).
Proof. apply writes_pieces. Qed.
End facts.
