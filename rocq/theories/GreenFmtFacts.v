(** * Facts about [Debug] of green elements (proofs only) *)
Require Import String.
From Verif Require Export GreenFmt FmtFacts WrapGreenFacts.

(** the padding of a text, character by character *)
(** proof helper: std [PadAdapter] on characters *)
Fixpoint pads (nl : bool) (s : str) : str :=
  match s with [] => [] | c :: s' => (if nl then [32; 32; 32; 32]%N else []) ++ c :: pads (c =? 10)%N s' end.
(** proof helper: is the next character the first of a line? *)
Definition pads_nl (nl : bool) (s : str) : bool := match last s with Some c => (c =? 10)%N | None => nl end.

Lemma pads_app s : forall nl r, pads nl (s ++ r) = pads nl s ++ pads (pads_nl nl s) r.
Proof.
  induction s as [|c s IH]; intros nl r; [done|]. cbn [app pads]. rewrite IH, <- !app_assoc. cbn [app]. do 3 f_equal.
  unfold pads_nl. destruct s as [|d s]; [done|]. rewrite (last_cons c). destruct (last (d :: s)) eqn:E; [done|]. by apply last_None in E.
Qed.
Lemma pads_plain s : forall nl r, s <> [] -> 10%N ∉ s -> pads nl (s ++ r) = (if nl then [32; 32; 32; 32]%N else []) ++ s ++ pads false r.
Proof.
  induction s as [|c s IH]; intros nl r Hn Hs; [done|]. apply not_elem_of_cons in Hs as [Hc Hs]. cbn [app pads].
  assert ((c =? 10)%N = false) as -> by (apply N.eqb_neq; congruence). destruct s as [|d s]; [done|]. rewrite IH by done. done.
Qed.
Lemma split_incl_concat s : concat (split_incl s) = s.
Proof.
  induction s as [|c s IH]; [done|]. cbn [split_incl]. destruct (c =? 10)%N; [by cbn; rewrite IH|].
  destruct (split_incl s); cbn in *; by rewrite <- IH.
Qed.
(** a line: no newline but at its end *)
(** proof helper: a line of [split_incl] *)
Definition a_line (l : str) : Prop := exists s, 10%N ∉ s /\ (l = s ++ [10%N] \/ (l = s /\ s <> [])).
Lemma split_incl_lines s : Forall a_line (split_incl s).
Proof.
  induction s as [|c s IH]; [constructor|]. cbn [split_incl]. destruct (N.eqb_spec c 10) as [->|Hc].
  - constructor; [|done]. exists []. split; [by apply not_elem_of_nil|by left].
  - destruct (split_incl s) as [|l ls]; [constructor; [|done]|].
    + exists [c]. split; [by apply not_elem_of_cons; split; [congruence|apply not_elem_of_nil]|by right].
    + inversion IH as [|? ? (u&Hu&Hl) H2]; subst. constructor; [|done]. exists (c :: u). split; [by apply not_elem_of_cons; split; [congruence|]|].
      destruct Hl as [->|[-> _]]; [by left|by right].
Qed.
Lemma pads_line nl l : a_line l -> pads nl l = (if nl then [32; 32; 32; 32]%N else []) ++ l.
Proof.
  intros (s&Hs&[->|[-> Hn]]).
  - destruct s as [|c s]; [by destruct nl|]. by rewrite pads_plain.
  - rewrite <- (app_nil_r s) at 1. rewrite pads_plain by done. cbn. by rewrite app_nil_r.
Qed.
Lemma a_line_ne l : a_line l -> l <> [].
Proof. intros (s&_&[->|[-> ?]]); [by destruct s|done]. Qed.
Lemma pad_lines_ok ls : Forall a_line ls -> forall nl, concat (pad_lines nl ls).1 = pads nl (concat ls) /\ (pad_lines nl ls).2 = pads_nl nl (concat ls).
Proof.
  induction 1 as [|l ls Hl _ IH]; intros nl; [done|]. cbn [pad_lines concat].
  assert (Hnl : (match last l with Some c => (c =? 10)%N | None => false end) = pads_nl nl l).
  { unfold pads_nl. destruct (last l) eqn:E; [done|]. apply last_None in E as ->. by apply a_line_ne in Hl. }
  rewrite Hnl. specialize (IH (pads_nl nl l)). destruct (pad_lines (pads_nl nl l) ls) as [out b]. destruct IH as [H1 H2]. cbn [fst snd] in *.
  rewrite pads_app, (pads_line nl l Hl), <- H1. split; [by destruct nl; cbn; rewrite <- ?app_assoc|].
  rewrite H2. unfold pads_nl at 1 3. rewrite last_app. by destruct (last (concat ls)).
Qed.
Lemma pad_pieces_ok ps : forall nl, concat (pad_pieces nl ps) = pads nl (concat ps).
Proof.
  induction ps as [|p ps IH]; intros nl; [done|]. cbn [pad_pieces concat]. destruct (pad_lines_ok _ (split_incl_lines p) nl) as [H1 H2].
  destruct (pad_lines nl (split_incl p)) as [out b]. cbn [fst snd] in *. rewrite concat_app, H1, IH, H2, split_incl_concat. by rewrite pads_app.
Qed.

Lemma dec_plain n : dec n <> [] /\ 10%N ∉ dec n.
Proof.
  destruct (dec_ok n) as [_ [H1 H2]]. split; [destruct H2 as [->|(d&l&->&_)]; done|]. rewrite Forall_forall in H1. intros H%H1. lia.
Qed.
(** ** The text of each kind of element *)
Ltac lits := repeat match goal with |- context [lit ?s] => let v := eval vm_compute in (lit s) in change (lit s) with v end.
Ltac eqbs := repeat match goal with |- context [(N.pos ?p =? 10)%N] => let v := eval vm_compute in (N.pos p =? 10)%N in change (N.pos p =? 10)%N with v end.
Ltac crunch := repeat (progress (eqbs; cbn -[dec pad_pieces lit]; rewrite ?concat_app, ?pad_pieces_ok, ?app_nil_r;
  repeat match goal with |- context [pads ?b (?x ++ ?r)] => is_var x; rewrite (pads_plain x b r) by done end; rewrite <- ?app_assoc)).
Lemma dbg_green_one sdbg g : concat (dbg_green sdbg g false) = match g with GNode _ k tl cs => node_line k tl (length cs) | GTok _ k s => token_line k (sdbg s) end.
Proof.
  destruct g as [a k tl cs|a k s]; unfold dbg_green, debug_struct, dbg_kind, debug_tuple1, dbg_num, node_line, token_line; cbn -[dec lit]; lits; cbn -[dec]; rewrite ?app_nil_r, <- ?app_assoc; done.
Qed.
Lemma dbg_green_more sdbg g : (forall s, sdbg s <> [] /\ 10%N ∉ sdbg s) ->
  concat (dbg_green sdbg g true) = line_up match g with GNode _ k tl cs => node_lines k tl (length cs) | GTok _ k s => token_lines k (sdbg s) end.
Proof.
  intros Hs. unfold dbg_green, dbg_kind, debug_tuple1, dbg_num, node_lines, token_lines.
  destruct g as [a k tl cs|a k s]; cbn -[dec pad_pieces pads concat app lit].
  - destruct (dec_plain k) as [K1 K2]. destruct (dec_plain tl) as [T1 T2]. destruct (dec_plain (N.of_nat (length cs))) as [C1 C2].
    generalize dependent (dec k). generalize dependent (dec tl). generalize dependent (dec (N.of_nat (length cs))). intros dc C1 C2 dt T1 T2 dk K1 K2.
    rewrite ?concat_cons, ?concat_app, ?pad_pieces_ok. cbn -[pad_pieces pads lit]. rewrite ?concat_app, ?pad_pieces_ok. lits. crunch.
    done.
  - destruct (dec_plain k) as [K1 K2]. destruct (Hs s) as [S1 S2]. generalize dependent (dec k). generalize dependent (sdbg s). intros ds S1 S2 dk K1 K2.
    rewrite ?concat_cons, ?concat_app, ?pad_pieces_ok. cbn -[pad_pieces pads lit]. rewrite ?concat_app, ?pad_pieces_ok. lits. crunch. done.
Qed.
Lemma dbg_element_one sdbg g : concat (dbg_green_element sdbg g false) =
  match g with GNode _ k tl cs => lit "Node(" ++ node_line k tl (length cs) | GTok _ k s => lit "Token(" ++ token_line k (sdbg s) end ++ lit ")".
Proof.
  unfold dbg_green_element, debug_tuple1. rewrite !concat_app, dbg_green_one. by destruct g.
Qed.
Lemma dbg_element_more sdbg g : (forall s, sdbg s <> [] /\ 10%N ∉ sdbg s) ->
  concat (dbg_green_element sdbg g true) =
  line_up match g with GNode _ k tl cs => in_tuple (lit "Node") (node_lines k tl (length cs)) | GTok _ k s => in_tuple (lit "Token") (token_lines k (sdbg s)) end.
Proof.
  intros Hs. unfold dbg_green_element, debug_tuple1. rewrite !concat_app, pad_pieces_ok, concat_app, dbg_green_more by done.
  unfold node_lines, token_lines, in_tuple. destruct g as [a k tl cs|a k s]; cbn -[dec pads lit].
  - destruct (dec_plain k) as [K1 K2]. destruct (dec_plain tl) as [T1 T2]. destruct (dec_plain (N.of_nat (length cs))) as [C1 C2].
    generalize dependent (dec k). generalize dependent (dec tl). generalize dependent (dec (N.of_nat (length cs))). intros dc C1 C2 dt T1 T2 dk K1 K2.
    lits. crunch. done.
  - destruct (dec_plain k) as [K1 K2]. destruct (Hs s) as [S1 S2]. generalize dependent (dec k). generalize dependent (sdbg s). intros ds S1 S2 dk K1 K2.
    lits. crunch. done.
Qed.

(** ** What is shown tells the numbers *)
Lemma before_char (c : N) l1 : forall l2 r1 r2, c ∉ l1 -> c ∉ l2 -> l1 ++ c :: r1 = l2 ++ c :: r2 -> l1 = l2 /\ r1 = r2.
Proof.
  induction l1 as [|x l1 IH]; intros [|y l2] r1 r2 H1 H2 E; cbn in E.
  - by injection E.
  - injection E as <- _. apply not_elem_of_cons in H2 as []. done.
  - injection E as -> _. apply not_elem_of_cons in H1 as []. done.
  - injection E as <- E. apply not_elem_of_cons in H1 as [_ H1]. apply not_elem_of_cons in H2 as [_ H2]. destruct (IH l2 r1 r2 H1 H2 E) as [-> ->]. done.
Qed.
Lemma dec_no n c : ~ (48 <= c <= 57)%N -> c ∉ dec n.
Proof. intros Hc. destruct (dec_ok n) as [_ [H _]]. rewrite Forall_forall in H. intros Hi%H. lia. Qed.
Lemma dec_inj n m : dec n = dec m -> n = m.
Proof. intros E. destruct (dec_ok n) as [<- _]. destruct (dec_ok m) as [<- _]. by rewrite E. Qed.
Lemma node_line_inj k l n k' l' n' : node_line k l n = node_line k' l' n' -> k = k' /\ l = l' /\ n = n'.
Proof.
  unfold node_line. lits. intros E. cbn -[dec] in E. repeat (injection E as E).
  apply before_char in E as [E1 E]; [|apply dec_no; lia..]. repeat (injection E as E).
  apply before_char in E as [E2 E]; [|apply dec_no; lia..]. repeat (injection E as E).
  apply before_char in E as [E3 E]; [|apply dec_no; lia..].
  apply dec_inj in E1, E2, E3. split; [done|]. split; [done|]. lia.
Qed.
Lemma token_line_inj k s k' s' : token_line k s = token_line k' s' -> k = k' /\ s = s'.
Proof.
  unfold token_line. lits. intros E. cbn -[dec] in E. repeat (injection E as E).
  apply before_char in E as [E1 E]; [|apply dec_no; lia..]. repeat (injection E as E).
  apply app_inj_2 in E as [-> _]; [|done]. by apply dec_inj in E1.
Qed.
(** what is written, for any element and the length it stores *)
Lemma green_writes sink sdbg g :
  writes sink (fmt_green sink sdbg false g) (green_line sdbg (erase g) (glen g)) /\
  writes sink (fmt_green_element sink sdbg false g) (variant (erase g) ++ lit "(" ++ green_line sdbg (erase g) (glen g) ++ lit ")") /\
  (one_line sdbg ->
    writes sink (fmt_green sink sdbg true g) (line_up (green_lines sdbg (erase g) (glen g))) /\
    writes sink (fmt_green_element sink sdbg true g) (line_up (in_tuple (variant (erase g)) (green_lines sdbg (erase g) (glen g))))).
Proof.
  assert (H1 : green_line sdbg (erase g) (glen g) = concat (dbg_green sdbg g false)).
  { rewrite dbg_green_one. destruct g as [a k tl cs|a k s]; [|done]. cbn [erase green_line glen]. by rewrite map_length. }
  assert (H2 : variant (erase g) ++ lit "(" ++ green_line sdbg (erase g) (glen g) ++ lit ")" = concat (dbg_green_element sdbg g false)).
  { rewrite dbg_element_one. destruct g as [a k tl cs|a k s]; cbn [erase green_line glen variant]; rewrite ?map_length, !app_assoc; done. }
  split; [rewrite H1; apply writes_pieces|]. split; [rewrite H2; apply writes_pieces|]. intros Hs. split.
  - replace (line_up _) with (concat (dbg_green sdbg g true)); [apply writes_pieces|]. rewrite dbg_green_more by done. destruct g as [a k tl cs|a k s]; [|done]. cbn [erase green_lines glen]. by rewrite map_length.
  - replace (line_up _) with (concat (dbg_green_element sdbg g true)); [apply writes_pieces|]. rewrite dbg_element_more by done. destruct g as [a k tl cs|a k s]; [|done]. cbn [erase green_lines glen variant]. by rewrite map_length.
Qed.
