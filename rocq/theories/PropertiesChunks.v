(** * Properties of the chunks of a text, and of [Display] of texts and green trees (C77, C78, C53)

    [text_of root t]: [t] is obtainable by [SyntaxNode::text] on a node of the tree and any
    number of [slice] calls. *)
From Verif Require Import Chunks PropertiesBuilder PropertiesCursor PropertiesText PropertiesFmt.
Local Open Scope N_scope.

(** ** C77 *)
(** the tokens whose parts are the chunks of [t], in document order *)
Definition chunk_tokens (root : green) (p : pos) (t : stext) : list pos :=
  List.filter (meets (erase root) (rstart (st_range t)) (rend (st_range t)))
    (map (app p) (token_positions (erase (c_green (st_node t))))).

(** the closure is called on the parts of the tokens that meet or touch the range of the text,
    in document order, until it stops; what it stops with is the result.  A bound inside a char
    panics, but only when the token it is in is reached *)
Theorem c77_chunks root p t :
  built root -> coherent root -> text_of root t -> cursor_at root p = Some (st_node t) ->
  let part := part_of (erase root) (rstart (st_range t)) (rend (st_range t)) in
  (exists cs, Forall2 part (chunk_tokens root p t) cs /\
     st_to_string t = Ok (concat cs) /\
     forall S E (f : S -> str -> res (S * option E)) s, try_for_each_chunk t f s = visit f s cs) \/
  (exists qs q qs' cs, chunk_tokens root p t = qs ++ q :: qs' /\ Forall2 part qs cs /\ (forall ch, ~ part q ch) /\
     st_to_string t = Err Panic /\
     forall S E (f : S -> str -> res (S * option E)) s,
       try_for_each_chunk t f s =
         ('(s', o) ← visit f s cs; match o with Some e => Ok (s', Some e) | None => Err Panic end)).
Proof.
  intros H%built_wfg Hco Ht%(text_of_in root H) Hp part. destruct t as [c [a b]]. simpl in Hp.
  destruct (items_at root p c a b H Hco Hp) as (its&Hi&HF). fold (chunk_tokens root p (ST c (TR a b))) in HF. fold part in HF.
  pose proof (st_to_string_spec root H Hco _ Ht) as Hs. destruct (text_items root H Hco _ Ht) as (its'&Hi'&_&Hm).
  assert (its' = its) as -> by congruence. clear Hi'.
  destruct (mapM chunk_text its) as [cs|e] eqn:Em; [left|right].
  - exists cs. split; [by eapply items_ok|]. split; [by rewrite Hs, <- Hm|]. intros S E f s.
    unfold try_for_each_chunk, try_fold_chunks. rewrite Hi. simpl. rewrite (try_fold_ok _ _ _ _ Em). apply visit_sfold.
  - assert (e = Panic) as ->.
    { simpl in Hm. unfold text_str in Hm. eapply str_slice_err. by symmetry. }
    destruct (try_fold_cut (fun (_ : unit) _ => Ok (inl Datatypes.tt) : res (unit + unit)) Datatypes.tt its _ Em) as (its1&x&its2&cs&->&H1&H2&_).
    apply Forall2_app_inv_r in HF as (qs&qs2&HF1&HF2&Hqs). apply Forall2_cons_inv_r in HF2 as (q&qs'&Hq&_&->).
    exists qs, q, qs', cs. split; [done|]. split; [by eapply items_ok|].
    split; [intros ch Hch; apply (item_part _ _ _ _ _ _ Hq) in Hch; congruence|]. split; [by rewrite Hs, <- Hm|].
    intros S E f s. unfold try_for_each_chunk, try_fold_chunks. rewrite Hi. simpl.
    match goal with |- context [try_fold ?f ?s _] => destruct (try_fold_cut f s (its1 ++ x :: its2) _ Em) as (its1'&x'&its2'&cs'&Heq&H1'&H2'&->) end.
    assert (its1' = its1) as ->.
    { clear -Heq H1 H2 H1' H2'. revert its1' cs cs' Heq H1 H1'. induction its1 as [|y its1 IH]; intros [|y' its1'] cs cs' Heq H1 H1'; simpl in *.
      - done.
      - injection Heq as <- _. rewrite H2 in H1'. done.
      - injection Heq as <- _. rewrite H2' in H1. done.
      - injection Heq as <- Heq. apply res_bind_ok in H1 as (?&_&(?&H1&_)%res_bind_ok), H1' as (?&_&(?&H1'&_)%res_bind_ok). f_equal. by eapply IH. }
    assert (cs' = cs) as -> by congruence. rewrite <- visit_sfold. destruct (sfold _ s cs) as [[s'|[s' e]]|]; done.
Qed.
Print Assumptions c77_chunks.
(** [for_each_chunk] calls the closure on all of them *)
Theorem c77_for_each root p t m :
  built root -> coherent root -> text_of root t -> cursor_at root p = Some (st_node t) -> st_to_string t = Ok m ->
  exists cs, Forall2 (part_of (erase root) (rstart (st_range t)) (rend (st_range t))) (chunk_tokens root p t) cs /\ concat cs = m /\
    forall S (f : S -> str -> res S) s, for_each_chunk t f s = visit_all f s cs.
Proof.
  intros Hb Hco Ht Hp Hm. destruct (c77_chunks root p t Hb Hco Ht Hp) as [(cs&H1&H2&H3)|(?&?&?&?&_&_&_&?&_)]; [|congruence].
  exists cs. split; [done|]. split; [congruence|]. intros S f s. unfold for_each_chunk. rewrite H3, visit_never. by destruct (visit_all f s cs).
Qed.
Print Assumptions c77_for_each.
(** what [slice] makes of each kind of range argument *)
Theorem c77_slice_args root t pr r m :
  built root -> coherent root -> text_of root t -> st_to_string t = Ok m ->
  let '(a, b) := arg_bounds r (blen m) in
  a <= u32_max -> b <= u32_max ->
  (a <= b /\ b <= blen m -> exists t', st_slice_arg pr t r = Ok t' /\ text_of root t' /\
     forall m', st_to_string t' = Ok m' <-> is_slice m a b m') /\
  (~ (a <= b /\ b <= blen m) -> st_slice_arg pr t r = Err Panic).
Proof.
  intros Hb Hco Ht Hm. destruct (c30_to_string root t Hb Hco Ht) as (_&_&_&Hl&_). specialize (Hl m Hm). rewrite <- Hl.
  assert (st_len t <= u32_max) as Hu.
  { apply built_wfg in Hb. pose proof (text_of_in root Hb t Ht) as ([q Hq]&?&?&?). pose proof (cursor_at_fits root Hb _ _ Hq). unfold st_len, range_len. lia. }
  assert (forall rs re, default 0 rs <= u32_max -> default 0 re <= u32_max ->
    let s := default 0 rs in let e := default (st_len t) re in
    (s <= e /\ e <= st_len t -> exists t', st_slice pr t rs re = Ok t' /\ text_of root t' /\
       forall m', st_to_string t' = Ok m' <-> is_slice m s e m') /\
    (~ (s <= e /\ e <= st_len t) -> st_slice pr t rs re = Err Panic)) as Hsl.
  { intros rs re H1 H2 s e. destruct (c30_slice root t pr rs re Hb Hco Ht H1 H2) as [Ha Hc]. split; [|exact Hc].
    intros H. destruct (Ha H) as (t'&E1&E2&_&E3). exists t'. split; [done|]. split; [done|]. by apply E3. }
  unfold st_slice_arg. destruct r as [[a b]|a b|a|b|]; simpl; intros H1 H2.
  - by apply (Hsl (Some a) (Some b)).
  - by apply (Hsl (Some a) (Some b)).
  - by apply (Hsl (Some a) None).
  - by apply (Hsl None (Some b)).
  - by apply (Hsl None None).
Qed.
Print Assumptions c77_slice_args.
(** the first child of the example tree has the text "ab€" in the tokens "a" and "b€"; the
    slice 1.. of it has the empty end of the first as a chunk; the slice ..3 has the chunk "a"
    and then panics, unless the closure stops at "a" *)
Example c77_nonvacuous :
  exists t t1 t2, st_new (ex_c [0%nat]) = Ok t /\ st_slice_arg Checked t (AFrom 1) = Ok t1 /\ st_slice_arg Checked t (ATo 3) = Ok t2 /\
    text_of ex_g t /\ text_of ex_g t1 /\ text_of ex_g t2 /\
    chunk_tokens ex_g [0%nat] t1 = [[0; 0]; [0; 1]]%nat /\
    try_for_each_chunk t1 (fun s ch => Ok (s ++ [ch], @None unit)) [] = Ok ([[]; [98; 8364]], None) /\
    for_each_chunk t2 (fun s ch => Ok (s ++ [ch])) [] = Err Panic /\
    try_for_each_chunk t2 (fun s ch => Ok (s ++ [ch], Some ch)) [] = Ok ([[97]], Some [97]).
Proof.
  assert (exists t, st_new (ex_c [0%nat]) = Ok t /\ text_of ex_g t) as (t&Ht&Htt).
  { eexists. split; [reflexivity|]. by eapply (text_new ex_g [0%nat] (ex_c [0%nat])). }
  injection Ht as <-. exists (ST (ex_c [0%nat]) (TR 0 5)), (ST (ex_c [0%nat]) (TR 1 5)), (ST (ex_c [0%nat]) (TR 0 3)).
  split; [done|]. split; [done|]. split; [done|]. split; [exact Htt|].
  split; [by apply (text_slice ex_g Checked _ (Some 1) None _ Htt)|]. split; [by apply (text_slice ex_g Checked _ None (Some 3) _ Htt)|].
  vm_compute. done.
Qed.

(** ** C53: [Display] of a text pads or cuts each chunk by itself *)
Theorem c53_text_display_partial sink o root p t m :
  built root -> coherent root -> text_of root t -> cursor_at root p = Some (st_node t) -> st_to_string t = Ok m ->
  exists cs, Forall2 (part_of (erase root) (rstart (st_range t)) (rend (st_range t))) (chunk_tokens root p t) cs /\ concat cs = m /\
    (forall out, st_display sink o t out = wpieces sink (map (pad o) cs) out) /\
    writes sink (st_display sink o t) (concat (map (pad o) cs)).
Proof.
  intros Hb Hco Ht Hp Hm. destruct (c77_chunks root p t Hb Hco Ht Hp) as [(cs&H1&H2&H3)|(?&?&?&?&_&_&_&?&_)]; [|congruence].
  exists cs. split; [done|]. split; [congruence|].
  assert (forall out, st_display sink o t out = wpieces sink (map (pad o) cs) out) as Hw by (intros out; unfold st_display; rewrite H3; apply visit_pieces).
  split; [done|]. eapply writes_ext; [intros out; symmetry; apply Hw|]. apply wpieces_writes.
Qed.
Print Assumptions c53_text_display_partial.
(** ["{:>3}"] of the text "b€" is " b€" for a string.  For the slice 1.. of the text of a node
    with the tokens "a" and "b€" three blanks come first: the token "a" touches the range, and
    its empty part is padded too *)
Theorem c53_text_display_refuted :
  exists root t o, built root /\ coherent root /\ text_of root t /\
    st_to_string t = Ok [98; 8364] /\ pad o [98; 8364] = [32; 98; 8364] /\
    st_display no_fail o t [] = Ok (true, [32; 32; 32; 32; 98; 8364]).
Proof.
  destruct ex_g_ok as (Hb&Hco&_). destruct c77_nonvacuous as (t&t1&_&Ht&Ht1&_&_&Ho&_). injection Ht as <-. vm_compute in Ht1. injection Ht1 as <-.
  exists ex_g, (ST (ex_c [0%nat]) (TR 1 5)), (FO (Some 3%nat) None 32 FRight).
  split; [done|]. split; [done|]. split; [exact Ho|]. vm_compute. done.
Qed.
Print Assumptions c53_text_display_refuted.

(** ** C78 *)
(** [Display] of a green tree writes the texts of its tokens in order, each by one call of
    [write_str], whatever the format options *)
Theorem c78_green_display sink o g :
  (forall out, green_fmt sink o g out = wpieces sink (token_texts (erase g)) out) /\
  writes sink (green_fmt sink o g) (ttext (erase g)).
Proof.
  split; [intros out; apply green_fmt_pieces|].
  eapply writes_ext; [intros out; symmetry; apply green_fmt_pieces|]. rewrite <- concat_token_texts. apply wpieces_writes.
Qed.
Print Assumptions c78_green_display.
(** without options it does what [Display] of a syntax node or token on that green element
    does, with every writer, also one that fails *)
Theorem c78_agrees sink o root p c out :
  built root -> coherent root -> cursor_at root p = Some c ->
  green_fmt sink o (c_green c) out =
    (if c_is_node c then display_node sink fo_default c out else display_token sink fo_default c out).
Proof.
  intros Hb%built_wfg Hco Hc. rewrite green_fmt_pieces. destruct (c_is_node c) eqn:En.
  - rewrite (display_node_pieces sink fo_default root p c out Hb Hco Hc). f_equal.
    rewrite <- (map_id (token_texts _)) at 1. apply map_ext. intros s. by rewrite pad_default.
  - unfold c_is_node in En. unfold display_token, c_text. destruct (c_green c) as [|a k s]; [done|]. simpl. rewrite pad_default. unfold wseq.
    by destruct (wstr sink s out) as [[[] ?]|].
Qed.
Print Assumptions c78_agrees.
(** ["{:>3}"] pads the tokens of a syntax node and not those of its green node *)
Theorem c78_options_ignored :
  exists root c o, built root /\ coherent root /\ cursor_at root [] = Some c /\ c_is_node c = true /\
    green_fmt no_fail o (c_green c) [] = green_fmt no_fail fo_default (c_green c) [] /\
    display_node no_fail o c [] <> display_node no_fail fo_default c [].
Proof.
  destruct ex_g_ok as (Hb&Hco&_). exists ex_g, (ex_c []), (FO (Some 3%nat) None 32 FRight).
  split; [done|]. split; [done|]. split; [done|]. split; [done|]. split; vm_compute; done.
Qed.
Print Assumptions c78_options_ignored.
Example c78_nonvacuous :
  green_fmt no_fail (FO (Some 3%nat) None 32 FRight) ex_g [33] = Ok (true, [33; 97; 98; 8364; 32; 97; 98; 8364]) /\
  green_fmt (fun out s => if decide (length out + length s <= 4)%nat then None else Some (4 - length out)%nat) fo_default ex_g [33] = Ok (false, [33; 97; 98; 8364]).
Proof. vm_compute. done. Qed.
