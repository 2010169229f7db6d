(** * Facts about token_at_offset, child_or_token_at_range, covering_element, replace_with *)
From Verif Require Export Tokens.
Local Open Scope N_scope.

(** proof device, no counterpart in the code *)
Definition tao_list {A} (r : token_at_offset_t A) : list A :=
  match r with TaoNone => [] | TaoSingle a => [a] | TaoBetween a b => [a; b] end.

(** ** Touching tokens, relative to a base offset *)
(** proof device, no counterpart in the code *)
Definition touch_b (b : N) (t : tree) (x : N) (q : pos) : bool :=
  match trange t q with
  | Some (a, e) => (a <? e) && (b + a <=? x) && (x <=? b + e)
  | None => false
  end.
(** proof device, no counterpart in the code *)
Definition tt (b : N) (t : tree) (x : N) : list pos := List.filter (touch_b b t x) (token_positions t).
(** proof device, no counterpart in the code *)
Fixpoint ttl (b : N) (i : nat) (cs : list tree) (x : N) : list pos :=
  match cs with
  | [] => []
  | c :: cs' => map (cons i) (tt b c x) ++ ttl (b + blen (ttext c)) (S i) cs' x
  end.
(** proof device, no counterpart in the code *)
Fixpoint tidx (b : N) (i : nat) (cs : list tree) (x : N) : list nat :=
  match cs with
  | [] => []
  | c :: cs' =>
      let e := b + blen (ttext c) in
      (if (b <? e) && (b <=? x) && (x <=? e) then [i] else []) ++ tidx e (S i) cs' x
  end.

Lemma lfilter_app {A} (f : A -> bool) l1 l2 : List.filter f (l1 ++ l2) = List.filter f l1 ++ List.filter f l2.
Proof. apply List.filter_app. Qed.
Lemma lfilter_map {A B} (f : B -> bool) (g : A -> B) l :
  List.filter f (map g l) = map g (List.filter (fun x => f (g x)) l).
Proof. induction l as [|x l IH]; simpl; [done|]. destruct (f (g x)); simpl; by rewrite IH. Qed.
Lemma lfilter_ext {A} (f g : A -> bool) l : (forall x, x ∈ l -> f x = g x) -> List.filter f l = List.filter g l.
Proof.
  induction l as [|x l IH]; intros H; simpl; [done|]. rewrite (H x) by left.
  rewrite IH by (intros; apply H; by right). done.
Qed.

Lemma andb_cong a b c d : a = c -> b = d -> a && b = c && d.
Proof. by intros -> ->. Qed.
Lemma trange_cons k cs i q c :
  cs !! i = Some c ->
  trange (Node k cs) (i :: q) =
  match trange c q with Some (a, e) => Some (blen (ctext (take i cs)) + a, blen (ctext (take i cs)) + e) | None => None end.
Proof.
  intros H. unfold trange. simpl. rewrite H. destruct (tsub c q); [|done].
  rewrite blen_app. f_equal. f_equal. unfold ctext. lia.
Qed.
Lemma trange_app t p q s :
  tsub t p = Some s ->
  trange t (p ++ q) =
  match trange s q with Some (a, e) => Some (blen (tbefore t p) + a, blen (tbefore t p) + e) | None => None end.
Proof.
  intros H. unfold trange. rewrite tsub_app, H. destruct (tsub s q); [|done].
  rewrite tbefore_app, H, blen_app. f_equal. f_equal. lia.
Qed.
Lemma touch_b_bounds b t x q : touch_b b t x q = true -> b <= x <= b + blen (ttext t) /\ 0 < blen (ttext t).
Proof.
  unfold touch_b, trange. destruct (tsub t q) as [c|] eqn:E; [|done].
  pose proof (tbefore_bound _ _ _ E) as Hb. rewrite !andb_true_iff, N.ltb_lt, !N.leb_le. lia.
Qed.
Lemma tt_out b t x : x < b \/ b + blen (ttext t) < x \/ blen (ttext t) = 0 -> tt b t x = [].
Proof.
  intros H. unfold tt. induction (token_positions t) as [|q l IH]; simpl; [done|].
  destruct (touch_b b t x q) eqn:E; [|done]. apply touch_b_bounds in E. lia.
Qed.
Lemma tt_node b k cs x : tt b (Node k cs) x = ttl b 0 cs x.
Proof.
  unfold tt. rewrite token_positions_node.
  enough (H : forall pre, List.filter (touch_b b (Node k (pre ++ cs)) x) (tpl (length pre) cs)
                = ttl (b + blen (ctext pre)) (length pre) cs x).
  { specialize (H []). simpl in H. by rewrite N.add_0_r in H. }
  induction cs as [|c cs IH]; intros pre; simpl; [done|]. rewrite lfilter_app, lfilter_map. f_equal.
  - f_equal. unfold tt. apply lfilter_ext. intros q _. unfold touch_b.
    rewrite (trange_cons _ _ _ _ c) by (by rewrite lookup_app_r, Nat.sub_diag).
    rewrite take_app_alt by done. destruct (trange c q) as [[a e]|]; [|done].
    rewrite <- !andb_assoc. repeat apply andb_cong; apply eq_true_iff_eq; rewrite ?N.ltb_lt, ?N.leb_le; lia.
  - specialize (IH (pre ++ [c])). rewrite app_length, Nat.add_1_r, <- app_assoc in IH.
    change ([c] ++ cs) with (c :: cs) in IH. rewrite IH, ctext_app, ctext_cons. change (ctext []) with (@nil N). rewrite app_nil_r, blen_app. f_equal. lia.
Qed.
Lemma tt_app t p s x : tsub t p = Some s -> touching_tokens t p x = tt (blen (tbefore t p)) s x.
Proof.
  intros H. unfold touching_tokens. rewrite H. apply lfilter_ext. intros q _.
  unfold touching, touch_b. rewrite (trange_app _ _ _ _ H). destruct (trange s q) as [[a e]|]; [|done].
  rewrite <- !andb_assoc. repeat apply andb_cong; apply eq_true_iff_eq; rewrite ?N.ltb_lt, ?N.leb_le; lia.
Qed.

Lemma tidx_lt b i cs x : x < b -> tidx b i cs x = [] /\ ttl b i cs x = [].
Proof.
  revert b i. induction cs as [|c cs IH]; intros b i H; simpl; [done|].
  destruct (IH (b + blen (ttext c)) (S i)) as [-> ->]; [lia|]. rewrite tt_out by lia.
  destruct (N.leb_spec b x); [lia|]. by rewrite andb_false_r.
Qed.
Lemma tidx_zero b i cs x : blen (ctext cs) = 0 -> tidx b i cs x = [] /\ ttl b i cs x = [].
Proof.
  revert b i. induction cs as [|c cs IH]; intros b i H; simpl; [done|].
  rewrite ctext_cons, blen_app in H.
  destruct (IH (b + blen (ttext c)) (S i)) as [-> ->]; [lia|]. rewrite tt_out by lia.
  destruct (N.ltb_spec b (b + blen (ttext c))); [lia|]. done.
Qed.
(** child [j] of the forest starting at [b] starts at [s] *)
Definition tchild (b : N) (i : nat) (cs : list tree) (j : nat) (c : tree) (s : N) : Prop :=
  (i <= j)%nat /\ cs !! (j - i)%nat = Some c /\ s = b + blen (ctext (take (j - i)%nat cs)) /\ 0 < blen (ttext c).
Lemma tchild_cons b i c0 cs j c s :
  tchild (b + blen (ttext c0)) (S i) cs j c s -> tchild b i (c0 :: cs) j c s.
Proof.
  intros (H1&H2&->&H4). unfold tchild. replace (j - i)%nat with (S (j - S i)) by lia.
  split; [lia|]. split; [done|]. split; [|done]. simpl. rewrite ctext_cons, blen_app. lia.
Qed.
Lemma tchild_head b i c0 cs : 0 < blen (ttext c0) -> tchild b i (c0 :: cs) i c0 b.
Proof. intros H. unfold tchild. rewrite Nat.sub_diag. simpl. split_and!; [lia|done|change (ctext []) with (@nil N); simpl; lia|done]. Qed.
Lemma tchild_bounds b i cs j c s : tchild b i cs j c s -> b <= s /\ s + blen (ttext c) <= b + blen (ctext cs).
Proof. intros (_&H&->&_). rewrite (ctext_split _ _ _ H), !blen_app. lia. Qed.
Lemma tidx_start b i cs :
  0 < blen (ctext cs) ->
  exists j c, tidx b i cs b = [j] /\ ttl b i cs b = map (cons j) (tt b c b) /\ tchild b i cs j c b.
Proof.
  revert b i. induction cs as [|c cs IH]; intros b i H; [unfold ctext in H; simpl in H; lia|].
  rewrite ctext_cons, blen_app in H. simpl.
  destruct (N.ltb_spec b (b + blen (ttext c))) as [Hlt|Hge].
  - destruct (tidx_lt (b + blen (ttext c)) (S i) cs b ltac:(lia)) as [-> ->]. rewrite !app_nil_r.
    destruct (N.leb_spec b b); [|lia]. destruct (N.leb_spec b (b + blen (ttext c))); [|lia]. simpl.
    exists i, c. split_and!; [done|done|]. apply tchild_head. lia.
  - rewrite (tt_out b c b) by lia. simpl.
    destruct (IH (b + blen (ttext c)) (S i) ltac:(lia)) as (j&d&H1&H2&H3).
    assert (Hb : b + blen (ttext c) = b) by lia. rewrite Hb in *.
    exists j, d. split_and!; [done|done|]. apply tchild_cons. by rewrite Hb.
Qed.
Lemma tidx_cases b i cs x :
  0 < blen (ctext cs) -> b <= x <= b + blen (ctext cs) ->
  (exists j c s, tidx b i cs x = [j] /\ ttl b i cs x = map (cons j) (tt s c x) /\ tchild b i cs j c s /\
     s <= x <= s + blen (ttext c)) \/
  (exists j1 c1 s1 j2 c2, tidx b i cs x = [j1; j2] /\
     ttl b i cs x = map (cons j1) (tt s1 c1 x) ++ map (cons j2) (tt x c2 x) /\
     tchild b i cs j1 c1 s1 /\ tchild b i cs j2 c2 x /\ x = s1 + blen (ttext c1)).
Proof.
  revert b i. induction cs as [|c cs IH]; intros b i H Hx; [unfold ctext in H; simpl in H; lia|].
  rewrite ctext_cons, blen_app in *. simpl.
  destruct (N.ltb_spec b (b + blen (ttext c))) as [Hlt|Hge].
  - destruct (N.leb_spec b x); [|lia]. destruct (N.leb_spec x (b + blen (ttext c))) as [Hle|Hgt]; simpl.
    + destruct (decide (x = b + blen (ttext c))) as [->|Hne].
      * destruct (decide (blen (ctext cs) = 0)) as [Hz|Hnz].
        -- destruct (tidx_zero (b + blen (ttext c)) (S i) cs (b + blen (ttext c)) Hz) as [-> ->]. rewrite !app_nil_r.
           left. exists i, c, b. split_and!; [done|done|apply tchild_head; lia|lia|lia].
        -- destruct (tidx_start (b + blen (ttext c)) (S i) cs ltac:(lia)) as (j&d&->&->&Hd).
           right. exists i, c, b, j, d. split_and!; [done|done|apply tchild_head; lia|by apply tchild_cons|done].
      * destruct (tidx_lt (b + blen (ttext c)) (S i) cs x ltac:(lia)) as [-> ->]. rewrite !app_nil_r.
        left. exists i, c, b. split_and!; [done|done|apply tchild_head; lia|lia|lia].
    + rewrite (tt_out b c x) by lia. simpl.
      destruct (IH (b + blen (ttext c)) (S i) ltac:(lia) ltac:(lia)) as [(j&d&s&H1&H2&H3&H4)|(j1&c1&s1&j2&c2&H1&H2&H3&H4&H5)].
      * left. exists j, d, s. split_and!; [done|done|by apply tchild_cons|lia|lia].
      * right. exists j1, c1, s1, j2, c2. split_and!; [done|done|by apply tchild_cons|by apply tchild_cons|done].
  - rewrite (tt_out b c x) by lia. simpl.
    destruct (IH (b + blen (ttext c)) (S i) ltac:(lia) ltac:(lia)) as [(j&d&s&H1&H2&H3&H4)|(j1&c1&s1&j2&c2&H1&H2&H3&H4&H5)].
    + left. exists j, d, s. split_and!; [done|done|by apply tchild_cons|lia|lia].
    + right. exists j1, c1, s1, j2, c2. split_and!; [done|done|by apply tchild_cons|by apply tchild_cons|done].
Qed.
(** at either end of a non-empty tree exactly one token touches *)
Lemma tt_end b t x :
  0 < blen (ttext t) -> x = b \/ x = b + blen (ttext t) -> exists q, tt b t x = [q].
Proof.
  revert b x. induction t as [k cs IH|k s] using tree_ind'; intros b x H Hx.
  - rewrite tt_node. rewrite ttext_node in *.
    destruct (tidx_cases b 0 cs x H ltac:(lia)) as [(j&c&s&_&->&Hc&Hs)|(j1&c1&s1&j2&c2&_&_&H1&H2&Hs)].
    + pose proof (tchild_bounds _ _ _ _ _ _ Hc). destruct Hc as (_&Hj&_&Hpos).
      rewrite Forall_lookup in IH. destruct (IH _ _ Hj s x Hpos) as [q ->]; [lia|]. simpl. eauto.
    + pose proof (tchild_bounds _ _ _ _ _ _ H1). pose proof (tchild_bounds _ _ _ _ _ _ H2).
      destruct H1 as (_&_&_&?). destruct H2 as (_&_&_&?). lia.
  - exists []. unfold tt, touch_b, trange. simpl. simpl in H, Hx.
    rewrite !N.add_0_l, !N.add_0_r. destruct (N.ltb_spec 0 (blen s)); [|lia]. destruct (N.leb_spec b x); [|lia].
    destruct (N.leb_spec x (b + blen s)); [|lia]. done.
Qed.

Lemma tt_in b t x q : q ∈ tt b t x -> exists a e, trange t q = Some (a, e) /\ a < e /\ b + a <= x <= b + e /\ e <= blen (ttext t).
Proof.
  intros H. apply elem_of_list_In, List.filter_In in H as [_ H]. unfold touch_b in H.
  destruct (trange t q) as [[a e]|] eqn:E; [|done]. exists a, e. split; [done|].
  rewrite !andb_true_iff, N.ltb_lt, !N.leb_le in H. unfold trange in E. destruct (tsub t q) as [c|] eqn:Es; [|done].
  injection E as <- <-. pose proof (tbefore_bound _ _ _ Es). lia.
Qed.
Lemma tt_count b t x :
  b <= x <= b + blen (ttext t) -> 0 < blen (ttext t) ->
  (exists q, tt b t x = [q]) \/
  (exists q1 q2 s e, tt b t x = [q1; q2] /\ b < x < b + blen (ttext t) /\
     trange t q1 = Some (s, x - b) /\ trange t q2 = Some (x - b, e)).
Proof.
  revert b. induction t as [k cs IH|k s] using tree_ind'; intros b Hx Hp.
  - rewrite tt_node. rewrite ttext_node in *.
    destruct (tidx_cases b 0 cs x Hp ltac:(lia)) as [(j&c&s&_&->&Hc&Hs)|(j1&c1&s1&j2&c2&_&->&H1&H2&Hs)].
    + pose proof (tchild_bounds _ _ _ _ _ _ Hc). destruct Hc as (_&Hj&Hs'&Hpos). rewrite Nat.sub_0_r in *.
      rewrite Forall_lookup in IH. destruct (IH _ _ Hj s ltac:(lia) Hpos) as [[q ->]|(q1&q2&s0&e&->&Hlt&E1&E2)].
      * left. by exists (j :: q).
      * right. exists (j :: q1), (j :: q2), (blen (ctext (take j cs)) + s0), (blen (ctext (take j cs)) + e).
        split; [done|]. split; [lia|]. rewrite !(trange_cons _ _ _ _ c Hj), E1, E2. split; do 2 f_equal; lia.
    + right. pose proof (tchild_bounds _ _ _ _ _ _ H1). pose proof (tchild_bounds _ _ _ _ _ _ H2).
      destruct H1 as (_&Hj1&Hs1&Hpos1). destruct H2 as (_&Hj2&Hs2&Hpos2). rewrite Nat.sub_0_r in *.
      destruct (tt_end s1 c1 x Hpos1 ltac:(lia)) as [q1 Hq1]. destruct (tt_end x c2 x Hpos2 ltac:(lia)) as [q2 Hq2].
      destruct (tt_in s1 c1 x q1) as (a1&e1&E1&?&?&?); [rewrite Hq1; left|].
      destruct (tt_in x c2 x q2) as (a2&e2&E2&?&?&?); [rewrite Hq2; left|].
      rewrite Hq1, Hq2. exists (j1 :: q1), (j2 :: q2), (blen (ctext (take j1 cs)) + a1), (blen (ctext (take j2 cs)) + e2).
      split; [done|]. split; [lia|]. rewrite (trange_cons _ _ _ _ c1 Hj1), (trange_cons _ _ _ _ c2 Hj2), E1, E2.
      split; do 2 f_equal; lia.
  - left. simpl in *. exists []. unfold tt, touch_b, trange. simpl. rewrite !N.add_0_l, !N.add_0_r.
    destruct (N.ltb_spec 0 (blen s)); [|lia]. destruct (N.leb_spec b x); [|lia].
    destruct (N.leb_spec x (b + blen s)); [|lia]. done.
Qed.

(** ** token_at_offset *)
Section search.
Context (root : green) (Hwf : wfg root).
Local Notation ats p := (Forall2 (fun q d => cursor_at root (p ++ q) = Some d)).

Lemma cstart_erase g i : cstart g i = blen (ctext (take i (tchildren (erase g)))).
Proof using Type. unfold cstart. by rewrite gctext_ctext, erase_children, take_map. Qed.
Lemma child_cursor p i c d :
  cursor_at root p = Some c -> cursor_at root (p ++ [i]) = Some d ->
  c_offset d = c_offset c + cstart (c_green c) i /\
  tchildren (erase (c_green c)) !! i = Some (erase (c_green d)) /\
  (gsize (c_green d) < gsize (c_green c))%nat /\
  cstart (c_green c) (S i) = cstart (c_green c) i + blen (gtext (c_green d)).
Proof using Hwf.
  intros Hc Hd. pose proof (cursor_at_snoc_inv _ _ _ _ Hd) as (c1&ch&Hc1&Hch&->). assert (c1 = c) as -> by congruence. simpl.
  pose proof (rel_range_wf _ _ _ (cursor_at_wfg root Hwf _ _ Hc) Hch) as Hr.
  unfold rel_range, range_at in Hr. injection Hr as Hr _.
  split_and!; [by rewrite Hr|by rewrite lookup_erase_children, Hch|by apply (gsize_child _ _ _ Hch)|by apply cstart_S].
Qed.

Lemma filter_touches_aux x p c0 :
  cursor_at root p = Some c0 ->
  forall cs' i l, drop i (tchildren (erase (c_green c0))) = cs' ->
  at_children root p (sel_go any i cs') l ->
  exists l', filter_res (touches x) l = Ok l' /\
    at_children root p (tidx (c_offset c0 + cstart (c_green c0) i) i cs' x) l'.
Proof using Hwf.
  intros H0. induction cs' as [|t cs' IH]; intros i l Hd Hl; simpl in *.
  { inversion Hl; subst. exists []. split; [done|constructor]. }
  inversion Hl as [|? c ? l0 Hc Hl0]; subst. clear Hl.
  destruct (IH (S i) l0) as (l'&Hf&Hat); [|done|].
  { replace (S i) with (i + 1)%nat by lia. by rewrite <- drop_drop, Hd. }
  cbn [filter_res].
  assert (Hto : touches x c = Ok (negb (c_offset c =? c_offset c + blen (gtext (c_green c))) &&
                  ((c_offset c <=? x) && (x <=? c_offset c + blen (gtext (c_green c)))))).
  { unfold touches. by rewrite (c_text_range_at root Hwf _ _ Hc). }
  rewrite Hto, Hf. cbn [mbind res_bind].
  destruct (child_cursor _ _ _ _ H0 Hc) as (Ho&Ht&_&Hs).
  assert (t = erase (c_green c)) as ->.
  { assert (H : tchildren (erase (c_green c0)) !! i = Some t).
    { rewrite <- (Nat.add_0_r i), <- lookup_drop, Hd. done. }
    congruence. }
  rewrite Hs, N.add_assoc in Hat. unfold gtext in *.
  rewrite Ho. set (b := c_offset c0 + cstart (c_green c0) i) in *. set (n := blen (ttext (erase (c_green c)))) in *.
  assert (Hb : negb (b =? b + n) && ((b <=? x) && (x <=? b + n)) = (b <? b + n) && (b <=? x) && (x <=? b + n)).
  { rewrite <- andb_assoc. apply andb_cong; [|done]. apply eq_true_iff_eq. rewrite negb_true_iff, N.eqb_neq, N.ltb_lt. lia. }
  rewrite Hb. destruct ((b <? b + n) && (b <=? x) && (x <=? b + n)); simpl.
  - exists (c :: l'). split; [done|]. constructor; done.
  - exists l'. done.
Qed.

Lemma token_at_offset_f_at fuel p c x :
  cursor_at root p = Some c -> (gsize (c_green c) <= fuel)%nat ->
  c_offset c <= x <= c_offset c + blen (gtext (c_green c)) ->
  c_is_node c = true \/ 0 < blen (gtext (c_green c)) ->
  exists r, token_at_offset_f fuel c x = Ok r /\
    ats p (tt (c_offset c) (erase (c_green c)) x) (tao_list r).
Proof using Hwf.
  revert p c. induction fuel as [|fuel IH]; intros p c Hc Hf Hx Hnt; [pose proof (gsize_pos (c_green c)); lia|].
  cbn [token_at_offset_f]. rewrite (c_text_range_at root Hwf _ _ Hc). cbn [mbind res_bind rstart rend].
  destruct (N.leb_spec (c_offset c) x); [|lia].
  destruct (N.leb_spec x (c_offset c + blen (gtext (c_green c)))); [|lia]. cbn [andb rassert mbind res_bind].
  destruct (c_is_node c) eqn:En; cbn [negb].
  2:{ destruct Hnt as [?|Hpos]; [done|]. exists (TaoSingle c). split; [done|].
      unfold c_is_node in En. unfold gtext in *. destruct (c_green c) as [|a k s] eqn:Eg; [done|]. simpl in *.
      unfold tt, touch_b, trange. simpl.
      rewrite !N.add_0_l, !N.add_0_r. destruct (N.ltb_spec 0 (blen s)); [|lia]. destruct (N.leb_spec (c_offset c) x); [|lia].
      destruct (N.leb_spec x (c_offset c + blen s)); [|lia]. simpl.
      repeat constructor. by rewrite app_nil_r. }
  clear Hnt. unfold range_is_empty. cbn [rstart rend].
  destruct (N.eqb_spec (c_offset c) (c_offset c + blen (gtext (c_green c)))) as [He|Hne].
  { exists TaoNone. split; [done|]. rewrite tt_out by (unfold gtext in *; lia). constructor. }
  destruct (children_with_tokens_at root p c Hwf Hc) as (l&->&Hl). cbn [mbind res_bind].
  destruct (filter_touches_aux x p c Hc (tchildren (erase (c_green c))) 0 l) as (l'&->&Hl').
  { by rewrite drop_0. }
  { by rewrite sel_go_any_length, length_erase_children. }
  rewrite cstart_0, N.add_0_r in Hl'. cbn [mbind res_bind].
  assert (Hch : forall j d t s, cursor_at root (p ++ [j]) = Some d -> tchild (c_offset c) 0 (tchildren (erase (c_green c))) j t s ->
      s <= x <= s + blen (ttext t) ->
      exists r, token_at_offset_f fuel d x = Ok r /\ ats (p ++ [j]) (tt s t x) (tao_list r)).
  { intros j d t s Hd (_&Hj&Hs&Hpos) Hsx. rewrite Nat.sub_0_r in *.
    destruct (child_cursor _ _ _ _ Hc Hd) as (Ho&Ht&Hsz&_).
    assert (t = erase (c_green d)) as -> by congruence. rewrite <- cstart_erase, <- Ho in Hs. subst s.
    apply IH; [done|lia|done|]. by right. }
  assert (Hn : exists k, erase (c_green c) = Node k (tchildren (erase (c_green c)))).
  { unfold c_is_node in En. destruct (c_green c); [|done]. eauto. }
  destruct Hn as [k Hn]. unfold gtext in *. rewrite Hn in Hx, Hne |- *. rewrite ttext_node in *.
  rewrite tt_node.
  destruct (tidx_cases (c_offset c) 0 (tchildren (erase (c_green c))) x ltac:(lia) ltac:(lia))
    as [(j&t&s&H1&H2&H3&H4)|(j1&c1&s1&j2&c2&H1&H2&H3&H4&H5)]; rewrite H1 in Hl'; rewrite H2.
  - inversion Hl' as [|? d ? ? Hd Hnil]; subst. inversion Hnil; subst. clear Hl' Hnil.
    destruct (Hch j d t s Hd H3 H4) as (r&->&Hr). exists r. split; [done|].
    apply Forall2_fmap_l. eapply Forall2_impl; [exact Hr|]. simpl. intros q e. by rewrite <- app_assoc.
  - inversion Hl' as [|? d ? ? Hd Hnil]; subst. inversion Hnil as [|? d2 ? ? Hd2 Hnil2]; subst. inversion Hnil2; subst. clear Hl' Hnil Hnil2.
    destruct (Hch j1 d c1 s1 Hd H3 ltac:(lia)) as (r1&->&Hr1).
    destruct (Hch j2 d2 c2 _ Hd2 H4 ltac:(lia)) as (r2&->&Hr2). cbn [mbind res_bind].
    destruct (tt_end s1 c1 (s1 + blen (ttext c1)) ltac:(apply H3) ltac:(by right)) as [q1 Hq1].
    destruct (tt_end (s1 + blen (ttext c1)) c2 (s1 + blen (ttext c1)) ltac:(apply H4) ltac:(by left)) as [q2 Hq2].
    rewrite Hq1 in *. rewrite Hq2 in *.
    destruct r1 as [|a1|]; [by inversion Hr1| |by inversion Hr1 as [|? ? ? ? ? Hx']; inversion Hx'].
    destruct r2 as [|a2|]; [by inversion Hr2| |by inversion Hr2 as [|? ? ? ? ? Hx']; inversion Hx'].
    exists (TaoBetween a1 a2). split; [done|]. simpl.
    inversion Hr1 as [|? ? ? ? E1]; subst. inversion Hr2 as [|? ? ? ? E2]; subst.
    rewrite <- app_assoc in E1, E2. repeat constructor; done.
Qed.
Lemma token_at_offset_at p c x :
  cursor_at root p = Some c -> c_is_node c = true ->
  c_offset c <= x <= c_offset c + blen (gtext (c_green c)) ->
  exists r, token_at_offset c x = Ok r /\
    ats p (touching_tokens (erase root) p x) (tao_list r).
Proof using Hwf.
  intros Hc Hn Hx. destruct (token_at_offset_f_at _ p c x Hc (le_n _) Hx ltac:(by left)) as (r&Hr&Hl).
  exists r. split; [done|]. rewrite (tt_app _ _ _ _ (cursor_at_tsub _ _ _ Hc)), <- (cursor_at_off root Hwf _ _ Hc). done.
Qed.
Lemma token_at_offset_outside p c x :
  cursor_at root p = Some c ->
  ~ (c_offset c <= x <= c_offset c + blen (gtext (c_green c))) -> token_at_offset c x = Err Panic.
Proof using Hwf.
  intros Hc Hx. unfold token_at_offset. pose proof (gsize_pos (c_green c)). destruct (gsize (c_green c)) eqn:E; [lia|].
  cbn [token_at_offset_f]. rewrite (c_text_range_at root Hwf _ _ Hc). cbn [mbind res_bind rstart rend].
  destruct (N.leb_spec (c_offset c) x); [|done].
  destruct (N.leb_spec x (c_offset c + blen (gtext (c_green c)))); [lia|done].
Qed.
(** an empty or non-empty node: how many tokens touch *)
Lemma touching_tokens_length p c x :
  cursor_at root p = Some c -> c_is_node c = true ->
  c_offset c <= x <= c_offset c + blen (gtext (c_green c)) ->
  (length (touching_tokens (erase root) p x) <= 2)%nat.
Proof using Hwf.
  intros Hc Hn Hx. destruct (token_at_offset_at p c x Hc Hn Hx) as (r&_&Hl). apply Forall2_length in Hl. unfold pos in *.
  destruct r; simpl in *; lia.
Qed.

(** ** child_or_token_at_range *)
(** proof device, no counterpart in the code *)
Definition crange (c : cursor) : N * N := (c_offset c, c_offset c + blen (gtext (c_green c))).
Lemma child_or_token_at_range_at p c r :
  cursor_at root p = Some c -> range_ok r -> c_offset c <= rstart r ->
  exists o, child_or_token_at_range c r = Ok (o ≫= fun i => cursor_at root (p ++ [i])) /\
  match o with
  | Some i => exists d, cursor_at root (p ++ [i]) = Some d /\ range_contains (crange d) (rstart r, rend r)
  | None => forall i d, cursor_at root (p ++ [i]) = Some d -> ~ range_contains (crange d) (rstart r, rend r)
  end.
Proof using Hwf.
  intros Hc Hr Hs. unfold child_or_token_at_range, range_sub. unfold range_ok in Hr.
  destruct (N.leb_spec (c_offset c) (rstart r)); [|lia]. cbn [mbind res_bind].
  pose proof (child_at_range_spec (c_green c) (TR (rstart r - c_offset c) (rend r - c_offset c))
                (cursor_at_wfg root Hwf _ _ Hc) ltac:(unfold range_ok; simpl; lia)) as Hsp.
  destruct (child_at_range _ _) as [[[i off] g]|].
  - destruct Hsp as (Hch&H1&H2&_). simpl in H1, H2.
    rewrite (mk_child_at root Hwf _ _ _ _ Hc Hch).
    pose proof (cursor_at_child _ _ _ _ _ Hc Hch) as Hd. exists (Some i). simpl. rewrite Hd. split; [done|].
    eexists. split; [done|]. destruct (child_cursor _ _ _ _ Hc Hd) as (Ho&_&_&He).
    unfold range_contains, crange. simpl in *. lia.
  - exists None. split; [done|]. intros i d Hd [H1 H2]. unfold crange in *. simpl in *.
    pose proof (cursor_at_snoc_inv _ _ _ _ Hd) as (c1&ch&Hc1&Hch&_). assert (c1 = c) as -> by congruence.
    destruct (child_cursor _ _ _ _ Hc Hd) as (Ho&_&_&He). apply (Hsp i ch Hch). lia.
Qed.
Lemma cstart_lookup_mono p c i j d e :
  cursor_at root p = Some c -> cursor_at root (p ++ [i]) = Some d -> cursor_at root (p ++ [j]) = Some e ->
  (i < j)%nat -> c_offset d + blen (gtext (c_green d)) <= c_offset e.
Proof using Hwf.
  intros Hc Hd He Hij. destruct (child_cursor _ _ _ _ Hc Hd) as (Ho&_&_&Hs).
  destruct (child_cursor _ _ _ _ Hc He) as (Ho'&_&_&_). pose proof (cstart_mono (c_green c) (S i) j ltac:(lia)). lia.
Qed.
(** two children containing the same non-empty range are the same *)
Lemma contains_unique p c i j d e a b :
  cursor_at root p = Some c -> cursor_at root (p ++ [i]) = Some d -> cursor_at root (p ++ [j]) = Some e ->
  a < b -> range_contains (crange d) (a, b) -> range_contains (crange e) (a, b) -> i = j.
Proof using Hwf.
  intros Hc Hd He Hab [H1 H2] [H3 H4]. unfold crange in *. simpl in *.
  destruct (Nat.lt_trichotomy i j) as [Hij|[?|Hij]]; [|done|].
  - pose proof (cstart_lookup_mono _ _ _ _ _ _ Hc Hd He Hij). lia.
  - pose proof (cstart_lookup_mono _ _ _ _ _ _ Hc He Hd Hij). lia.
Qed.
Lemma crange_trange p c : cursor_at root p = Some c -> trange (erase root) p = Some (crange c).
Proof using Hwf.
  intros H. unfold trange. rewrite (cursor_at_tsub _ _ _ H), <- (cursor_at_off root Hwf _ _ H). done.
Qed.
Lemma cursor_at_is_Some p : is_Some (tsub (erase root) p) -> is_Some (cursor_at root p).
Proof using Type.
  intros [t Ht]. destruct (cursor_at root p) eqn:E; [eauto|]. apply cursor_at_None in E. by rewrite erase_gsub, E in Ht.
Qed.

(** ** covering_element *)
Lemma crange_descendant p q c d :
  cursor_at root p = Some c -> cursor_at root (p ++ q) = Some d -> range_contains (crange c) (crange d).
Proof using Hwf.
  revert d. induction q as [|i q IH] using rev_ind; intros d Hc Hd.
  - rewrite app_nil_r in Hd. assert (c = d) as -> by congruence. unfold range_contains. lia.
  - rewrite app_assoc in Hd. destruct (cursor_at_prefix _ _ _ _ Hd) as [e He]. specialize (IH e Hc He).
    destruct (child_cursor _ _ _ _ He Hd) as (Ho&Ht&_&Hs).
    pose proof (cursor_at_tsub _ _ _ He) as HT.
    assert (cstart (c_green e) (S i) <= blen (gtext (c_green e))).
    { rewrite cstart_erase. unfold gtext. destruct (erase (c_green e)) as [k cs|]; simpl in Ht |- *; [|done].
      rewrite <- (take_drop (S i) cs) at 2. fold (ctext cs). change (concat (map ttext (take (S i) cs ++ drop (S i) cs))) with (ctext (take (S i) cs ++ drop (S i) cs)).
      rewrite ctext_app, blen_app. simpl. lia. }
    unfold range_contains, crange in *. simpl in *. lia.
Qed.
Lemma covering_element_f_at fuel p c r :
  cursor_at root p = Some c -> (gsize (c_green c) <= fuel)%nat -> range_ok r ->
  range_contains (crange c) (rstart r, rend r) ->
  exists q d, covering_element_f fuel c r = Ok d /\ cursor_at root (p ++ q) = Some d /\
    range_contains (crange d) (rstart r, rend r) /\
    (forall i e, cursor_at root (p ++ q ++ [i]) = Some e -> ~ range_contains (crange e) (rstart r, rend r)) /\
    (rstart r < rend r -> forall q' e, cursor_at root (p ++ q') = Some e ->
       range_contains (crange e) (rstart r, rend r) -> ancestor_or_self q' q).
Proof using Hwf.
  revert p c. induction fuel as [|fuel IH]; intros p c Hc Hf Hr Hin; [pose proof (gsize_pos (c_green c)); lia|].
  cbn [covering_element_f]. rewrite (c_text_range_at root Hwf _ _ Hc). cbn [mbind res_bind].
  assert (contains_range (TR (c_offset c) (c_offset c + blen (gtext (c_green c)))) r = true) as ->.
  { apply contains_range_iff. exact Hin. }
  cbn [rassert mbind res_bind].
  destruct (c_is_node c) eqn:En; cbn [negb].
  2:{ exists [], c. rewrite app_nil_r. split_and!; [done|done|done| |].
      - intros i e He. simpl in He. pose proof (cursor_at_snoc_inv _ _ _ _ He) as (c1&ch&Hc1&Hch&_).
        assert (c1 = c) as -> by congruence. unfold c_is_node in En. by destruct (c_green c).
      - intros _ q' e He _. destruct q' as [|i q']; [by exists []|].
        replace (p ++ i :: q') with ((p ++ [i]) ++ q') in He by (by rewrite <- app_assoc).
        destruct (cursor_at_prefix _ _ _ _ He) as [e' He']. pose proof (cursor_at_snoc_inv _ _ _ _ He') as (c1&ch&Hc1&Hch&_).
        assert (c1 = c) as -> by congruence. unfold c_is_node in En. by destruct (c_green c). }
  destruct (child_or_token_at_range_at p c r Hc Hr) as (o&->&Ho); [apply Hin|]. cbn [mbind res_bind].
  destruct o as [i|]; simpl.
  - destruct Ho as (d&Hd&Hrd). rewrite Hd. destruct (child_cursor _ _ _ _ Hc Hd) as (_&_&Hsz&_).
    destruct (IH _ d Hd ltac:(lia) Hr Hrd) as (q&e&H1&H2&H3&H4&H5).
    rewrite <- app_assoc in H2. exists (i :: q), e. split_and!; [done|done|done| |].
    + intros j e' He'. apply (H4 j e'). rewrite <- app_assoc. exact He'.
    + intros Hne q' e' He' Hre'. destruct q' as [|j q']; [by exists (i :: q)|].
      replace (p ++ j :: q') with ((p ++ [j]) ++ q') in He' by (by rewrite <- app_assoc).
      destruct (cursor_at_prefix _ _ _ _ He') as [e2 He2].
      pose proof (crange_descendant _ _ _ _ He2 He') as [Hd1 Hd2].
      assert (j = i) as ->.
      { eapply (contains_unique p c j i e2 d (rstart r) (rend r) Hc He2 Hd Hne); [|done].
        destruct Hre' as [? ?]. unfold range_contains in *. simpl in *. lia. }
      destruct (H5 Hne q' e' He' Hre') as [r' ->]. by exists r'.
  - exists [], c. rewrite app_nil_r. split_and!; [done|done|done|exact Ho|].
    intros Hne q' e He Hre. destruct q' as [|j q']; [by exists []|].
    replace (p ++ j :: q') with ((p ++ [j]) ++ q') in He by (by rewrite <- app_assoc).
    destruct (cursor_at_prefix _ _ _ _ He) as [e2 He2].
    pose proof (crange_descendant _ _ _ _ He2 He) as [Hd1 Hd2].
    exfalso. apply (Ho j e2 He2). destruct Hre as [? ?]. unfold range_contains in *. simpl in *. lia.
Qed.
Lemma covering_element_outside p c r :
  cursor_at root p = Some c -> ~ range_contains (crange c) (rstart r, rend r) -> covering_element c r = Err Panic.
Proof using Hwf.
  intros Hc Hr. unfold covering_element. pose proof (gsize_pos (c_green c)). destruct (gsize (c_green c)) eqn:E; [lia|].
  cbn [covering_element_f]. rewrite (c_text_range_at root Hwf _ _ Hc). cbn [mbind res_bind].
  destruct (contains_range _ r) eqn:Er; [|done]. apply contains_range_iff in Er. by destruct Hr.
Qed.
End search.
