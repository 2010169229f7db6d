(** * Properties of [Debug] and [Display] of syntax trees (C45, C46, C53) *)
From Verif Require Import FmtFacts PropertiesCursor.

(** the parameters of the examples: kinds shown as letters, strings in double quotes *)
Definition ex_kdbg (k : kind) : str := [(65 + k)%N].
(** example *)
Definition ex_sdbg (s : str) : str := [34%N] ++ s ++ [34%N].
(** example *)
Definition no_fail (o1 o2 : str) : option nat := None.

(** ** C45 *)
(** [writes sink f s]: [f] writes exactly [s]; if the writer fails, [f] reports it and has
    written a prefix of [s].  [dump] has one line for each element of the subtree *)
Theorem c45_dump pr sink kfr kdbg sdbg root p c :
  built root -> coherent root -> cursor_at root p = Some c -> c_is_node c = true ->
  (forall q, is_Some (tsub (erase (c_green c)) q) -> (Z.of_nat (length q) < 2147483647)%Z) ->
  writes sink (fmt_node pr sink kfr kdbg sdbg true c) (dump kfr kdbg sdbg (erase root) p).
Proof.
  intros Hb%built_wfg Hco Hc _ Hd. apply fmt_node_writes; [done..|]. intros r Hr. by apply Hd, elem_of_positions.
Qed.
Print Assumptions c45_dump.
(** the lines of [dump] are those of all elements, each once *)
Theorem c45_every_element_once t : NoDup (positions t) /\ forall q, q ∈ positions t <-> is_Some (tsub t q).
Proof. split; [apply NoDup_positions|apply elem_of_positions]. Qed.
Print Assumptions c45_every_element_once.
(** a tree so deep that the level does not fit [i32]: with overflow checks, [Debug] panics *)
Theorem c45_too_deep sink kfr kdbg sdbg root p c q out :
  built root -> coherent root -> cursor_at root p = Some c -> (forall o1 o2, sink o1 o2 = None) ->
  is_Some (tsub (erase (c_green c)) q) -> (2147483647 <= Z.of_nat (length q))%Z ->
  fmt_node Checked sink kfr kdbg sdbg true c out = Err Panic.
Proof.
  intros Hb%built_wfg Hco Hc Hs Hq Hl. eapply fmt_node_too_deep; [done..| |exact Hl]. by apply elem_of_positions.
Qed.
Print Assumptions c45_too_deep.
(** one line: kind, range, and for a token its text, cut if long *)
Theorem c45_line pr sink kfr kdbg sdbg root p c :
  built root -> cursor_at root p = Some c ->
  writes sink (if c_is_node c then fmt_node pr sink kfr kdbg sdbg false c else fmt_token sink kfr kdbg sdbg c)
    (elem_line kfr kdbg sdbg (erase root) p).
Proof.
  intros Hb%built_wfg Hc. destruct (c_is_node c) eqn:En; [|by apply writes_token].
  pose proof (cursor_at_tsub _ _ _ Hc) as Ht. destruct (writes_head sink kfr kdbg root Hb p c _ Hc Ht) as (a&b&Hr&Hw).
  unfold elem_line. rewrite Ht, Hr. unfold c_is_node in En. destruct (c_green c); [|done]. simpl in *. by rewrite app_nil_r.
Qed.
Print Assumptions c45_line.
(** the cut: at the first char boundary from byte 21 on, which is before byte 25 *)
Theorem c45_shorten s :
  ((blen s < 25)%N -> shorten s = s) /\
  ((25 <= blen s)%N -> exists a b, s = a ++ b /\ shorten s = a ++ [32; 46; 46; 46]%N /\ (21 <= blen a < 25)%N /\
     forall a' b', s = a' ++ b' -> (21 <= blen a')%N -> (blen a <= blen a')%N).
Proof.
  unfold shorten. split; intros H.
  - by apply N.ltb_lt in H as ->.
  - apply N.ltb_ge in H as E. rewrite E. destruct (cut_after_prefix 21 s) as [r Hr].
    exists (cut_after 21 s), r. split; [done|]. split; [done|]. split; [apply cut_after_blen; lia|].
    intros a' b' Hs. by apply (cut_after_least 21 s a' b').
Qed.
Print Assumptions c45_shorten.
Theorem c45_decimal n : undec (dec n) = n /\ is_decimal (dec n).
Proof. apply dec_ok. Qed.
Print Assumptions c45_decimal.
(** {B@0..10 {C@0..5 "a" "b€"} ... } *)
Example c45_nonvacuous :
  fmt_node Checked no_fail (fun k => k) ex_kdbg ex_sdbg true (ex_c [0]) [] =
    Ok (true, [67;64;48;46;46;53;10; 32;32;68;64;48;46;46;49;32;34;97;34;10;
               32;32;69;64;49;46;46;53;32;34;98;8364;34;10]%N) /\
  shorten (replicate 20 97%N ++ [8364; 97; 97]%N) = replicate 20 97%N ++ [8364; 32; 46; 46; 46]%N /\
  dec 40960 = [52; 48; 57; 54; 48]%N.
Proof. vm_compute. done. Qed.
Example c45_depth_nonvacuous q : is_Some (tsub (erase (c_green (ex_c []))) q) -> (Z.of_nat (length q) < 2147483647)%Z.
Proof.
  intros H%elem_of_positions. assert (Forall (fun q => length q <= 3) (positions (erase (c_green (ex_c []))))) as HF.
  { vm_compute. repeat constructor. }
  rewrite Forall_forall in HF. specialize (HF _ H). lia.
Qed.
(** a writer that fails after four characters *)
Example c45_failing_writer :
  fmt_node Checked (fun out s => if decide (length out + length s <= 4) then None else Some (4 - length out))
    (fun k => k) ex_kdbg ex_sdbg true (ex_c [0]) [] = Ok (false, [67;64;48;46]%N).
Proof. vm_compute. done. Qed.
(** [n] nodes inside each other *)
Fixpoint nest (n : nat) : green :=
  match n with 0 => GNode 0 1 0 [] | S n' => GNode n 1 0 [(0%N, nest n')] end.
Lemma nest_facts n :
  gtext (nest n) = [] /\ wfg (nest n) /\ gaddr (nest n) = n /\
  (forall q g, gsub (nest n) q = Some g -> exists m, m <= n /\ g = nest m) /\ is_Some (tsub (erase (nest n)) (replicate n 0)).
Proof.
  induction n as [|n (H1&H2&H3&H4&H5)].
  - split; [done|]. split; [by apply wfg_node_intro; [constructor|..|intros ?? H; rewrite lookup_nil in H]|]. split; [done|].
    split; [|by eexists]. intros [|i q] g; simpl; [intros [= <-]; by exists 0|done].
  - assert (gctext (map snd [(0%N, nest n)]) = []) as Ht.
    { unfold gctext. simpl. by rewrite H1. }
    split; [unfold gtext in *; simpl; by rewrite H1|]. split; [|split; [done|split]].
    + change (wfg (GNode (S n) 1 0 [(0%N, nest n)])). apply wfg_node_intro; [simpl; constructor; [exact H2|constructor]|by rewrite Ht|done|].
      intros [|i] c; simpl; [by intros [= <-]|done].
    + intros [|[|i] q] g; simpl.
      * intros [= <-]. exists (S n). done.
      * intros Hg. destruct (H4 q g Hg) as (m&Hm&->). exists m. split; [lia|done].
      * done.
    + simpl. done.
Qed.
Example c45_too_deep_nonvacuous :
  exists root c q, built root /\ coherent root /\ cursor_at root [] = Some c /\
    is_Some (tsub (erase (c_green c)) q) /\ (2147483647 <= Z.of_nat (length q))%Z.
Proof.
  generalize (Z2Nat.id 2147483647 ltac:(done)). generalize (Z.to_nat 2147483647). intros n Hn.
  destruct (nest_facts n) as (_&Hw&_&Hs&Hd). exists (nest n), (CRoot (nest n)), (replicate n 0).
  split; [by apply wfg_built|]. split.
  { intros q1 q2 g1 g2 H1 H2. apply Hs in H1 as (m1&_&->), H2 as (m2&_&->).
    destruct (nest_facts m1) as (_&_&->&_), (nest_facts m2) as (_&_&->&_). by intros ->. }
  split; [done|]. split; [done|]. rewrite replicate_length. lia.
Qed.

(** ** C46: [Display] of syntax nodes and tokens, with no format options *)
Theorem c46_syntax_display sink root p c :
  built root -> coherent root -> cursor_at root p = Some c ->
  writes sink (if c_is_node c then display_node sink fo_default c else display_token sink fo_default c)
    (ttext (erase (c_green c))).
Proof.
  intros Hb%built_wfg Hco Hc. destruct (c_is_node c) eqn:En.
  - rewrite <- concat_token_texts, <- (map_id (token_texts _)). by eapply display_node_writes.
  - unfold c_is_node in En. unfold display_token, c_text. destruct (c_green c) as [|a k s]; [done|]. apply writes_wstr.
Qed.
Print Assumptions c46_syntax_display.
Example c46_syntax_nonvacuous :
  display_node no_fail fo_default (ex_c []) [33]%N = Ok (true, [33; 97; 98; 8364; 32; 97; 98; 8364]%N).
Proof. vm_compute. done. Qed.

(** ** C53: with width or precision, the text of a node is not formatted as a string is:
    each token is padded or cut by itself *)
Theorem c53_display_options_partial sink o root p c :
  built root -> coherent root -> cursor_at root p = Some c -> c_is_node c = true ->
  writes sink (display_node sink o c) (concat (map (pad o) (token_texts (erase (c_green c))))) /\
  concat (token_texts (erase (c_green c))) = ttext (erase (c_green c)).
Proof.
  intros Hb%built_wfg Hco Hc _. split; [by eapply display_node_writes|]. apply concat_token_texts.
Qed.
Print Assumptions c53_display_options_partial.
(** ["{:>3}"] and ["{:.1}"] *)
Theorem c53_display_options_refuted :
  exists root c o1 o2, built root /\ coherent root /\ cursor_at root [0] = Some c /\ c_is_node c = true /\
    ttext (erase (c_green c)) = [97; 98; 8364]%N /\
    pad o1 (ttext (erase (c_green c))) = [97; 98; 8364]%N /\
    display_node no_fail o1 c [] = Ok (true, [32; 32; 97; 32; 98; 8364]%N) /\
    pad o2 (ttext (erase (c_green c))) = [97]%N /\
    display_node no_fail o2 c [] = Ok (true, [97; 98]%N).
Proof.
  destruct ex_g_ok as (Hb&Hco&_).
  exists ex_g, (ex_c [0]), (FO (Some 3) None 32%N FRight), (FO None (Some 1) 32%N FLeft).
  split; [done|]. split; [done|]. split; [done|]. vm_compute. done.
Qed.
Print Assumptions c53_display_options_refuted.
