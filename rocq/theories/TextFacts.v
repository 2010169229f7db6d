(** * Facts about SyntaxText *)
From Verif Require Export Text.
Local Open Scope N_scope.

(** ** Slices of strings *)
Lemma is_slice_iff s a b m : is_slice s a b m <-> str_slice s a b = Ok m.
Proof.
  rewrite str_slice_Ok. unfold is_slice. split; intros (p&q&H1&H2&H3); exists p, q; rewrite ?blen_app in *; eauto.
Qed.
Lemma str_slice_err s a b e : str_slice s a b = Err e -> e = Panic.
Proof. unfold str_slice. repeat case_match; congruence. Qed.
Lemma str_slice_full s : str_slice s 0 (blen s) = Ok s.
Proof. apply str_slice_Ok. exists [], []. rewrite app_nil_r. done. Qed.
Lemma str_slice_empty_start s : str_slice s 0 0 = Ok [].
Proof. apply str_slice_Ok. by exists [], s. Qed.
Lemma str_slice_empty_end s : str_slice s (blen s) (blen s) = Ok [].
Proof. apply str_slice_Ok. exists s, []. rewrite !app_nil_r. done. Qed.
Lemma str_slice_len s a b m : str_slice s a b = Ok m -> a + blen m = b /\ b <= blen s.
Proof. intros (p&q&->&H2&H3)%str_slice_Ok. rewrite !blen_app in *. lia. Qed.
(** a slice of a concatenation *)
Lemma str_slice_app s t x y :
  x <= y -> y <= blen s + blen t ->
  str_slice (s ++ t) x y =
  (m1 ← str_slice s (N.min x (blen s)) (N.min y (blen s));
   m2 ← str_slice t (x - blen s) (y - blen s);
   Ok (m1 ++ m2)).
Proof.
  intros Hxy Hy.
  assert (Hfw : forall m, str_slice (s ++ t) x y = Ok m -> exists m1 m2,
     str_slice s (N.min x (blen s)) (N.min y (blen s)) = Ok m1 /\ str_slice t (x - blen s) (y - blen s) = Ok m2 /\ m = m1 ++ m2).
  { intros m (p&q&H1&H2&H3)%str_slice_Ok. rewrite blen_app in H3.
    destruct (N.le_gt_cases (blen s) x).
    - (* wholly in t *)
      apply app_eq_inv in H1 as [(k&Hs&Hk)|(k&->&Hk)].
      + assert (k = []) as ->. { apply blen_0. apply (f_equal blen) in Hs. rewrite blen_app in Hs. lia. }
        rewrite app_nil_r in Hs. subst s. simpl in Hk. exists [], m. rewrite !N.min_r by lia.
        split; [apply str_slice_empty_end|]. split; [|done]. apply str_slice_Ok. exists [], q. simpl. split; [done|]. lia.
      + exists [], m. rewrite !N.min_r by lia. split; [apply str_slice_empty_end|]. split; [|done].
        apply str_slice_Ok. exists k, q. rewrite blen_app in *. split; [done|]. lia.
    - destruct (N.le_gt_cases y (blen s)).
      + (* wholly in s *)
        rewrite app_assoc in H1. exists m, []. rewrite app_nil_r. apply app_eq_inv in H1 as [(k&Hs&Hk)|(k&Hpm&Hk)].
        * split.
          { apply str_slice_Ok. exists p, k. rewrite blen_app. split; [by rewrite app_assoc|]. lia. }
          split; [|done]. replace (x - blen s) with 0 by lia. replace (y - blen s) with 0 by lia. apply str_slice_empty_start.
        * assert (k = []) as ->. { apply blen_0. apply (f_equal blen) in Hpm. rewrite !blen_app in Hpm. lia. }
          rewrite app_nil_r in Hpm. simpl in Hk. split.
          { apply str_slice_Ok. exists p, []. rewrite app_nil_r, blen_app. split; [done|]. lia. }
          split; [|done]. replace (x - blen s) with 0 by lia. replace (y - blen s) with 0 by lia. apply str_slice_empty_start.
      + (* across *)
        apply app_eq_inv in H1 as [(k&Hs&Hk)|(k&Hp&Hk)].
        2:{ exfalso. apply (f_equal blen) in Hp. rewrite blen_app in Hp. lia. }
        apply app_eq_inv in Hk as [(k2&->&Hk2)|(k2&->&Hk2)].
        2:{ exfalso. apply (f_equal blen) in Hs. rewrite !blen_app in Hs. lia. }
        apply (f_equal blen) in Hs as Hl. rewrite !blen_app in *.
        exists k, k2. split.
        { apply str_slice_Ok. exists p, []. rewrite app_nil_r, blen_app. split; [done|]. lia. }
        split; [|done]. apply str_slice_Ok. exists [], q. simpl. split; [done|]. lia. }
  destruct (str_slice (s ++ t) x y) as [m|e] eqn:E.
  - destruct (Hfw m eq_refl) as (m1&m2&->&->&->). done.
  - pose proof (str_slice_err _ _ _ _ E) as ->.
    destruct (str_slice s _ _) as [m1|e1] eqn:E1; [|simpl; by rewrite (str_slice_err _ _ _ _ E1)].
    destruct (str_slice t _ _) as [m2|e2] eqn:E2; [|simpl; by rewrite (str_slice_err _ _ _ _ E2)].
    exfalso. simpl in *.
    assert (str_slice (s ++ t) x y = Ok (m1 ++ m2)); [|].
    { apply str_slice_Ok in E1 as (p1&q1&H1&H2&H3), E2 as (p2&q2&H4&H5&H6). rewrite blen_app in H3, H6. apply str_slice_Ok.
      destruct (N.le_gt_cases (blen s) x).
      - assert (m1 = []) as -> by (apply blen_0; lia). simpl. exists (s ++ p2), q2. rewrite H4, !blen_app.
        split; [by rewrite <- app_assoc|]. lia.
      - assert (p2 = []) as -> by (apply blen_0; lia). simpl in *. destruct (N.le_gt_cases y (blen s)).
        + assert (m2 = []) as -> by (apply blen_0; lia). rewrite app_nil_r. exists p1, (q1 ++ t). rewrite H1, blen_app.
          split; [by rewrite <- !app_assoc|]. lia.
        + assert (q1 = []) as ->. { apply blen_0. apply (f_equal blen) in H1. rewrite !blen_app in H1. lia. }
          rewrite app_nil_r in H1. exists p1, q2. rewrite H1, H4, !blen_app. split; [by rewrite <- !app_assoc|].
          apply (f_equal blen) in H1. rewrite !blen_app in H1. lia. }
    congruence.
Qed.

(** ** The tokens below a node *)
(** proof device, no counterpart in the code *)
Fixpoint ttoks (b : N) (t : tree) : list (N * str) :=
  match t with
  | Token _ s => [(b, s)]
  | Node _ cs =>
      (fix go (b : N) (cs : list tree) : list (N * str) :=
         match cs with [] => [] | c :: cs' => ttoks b c ++ go (b + blen (ttext c)) cs' end) b cs
  end.
(** proof device, no counterpart in the code *)
Fixpoint ttoksl (b : N) (cs : list tree) : list (N * str) :=
  match cs with [] => [] | c :: cs' => ttoks b c ++ ttoksl (b + blen (ttext c)) cs' end.
Lemma ttoks_node b k cs : ttoks b (Node k cs) = ttoksl b cs.
Proof. simpl. revert b. induction cs as [|c cs IH]; intros b; simpl; [done|]. by rewrite IH. Qed.
(** proof device, no counterpart in the code *)
Definition tinfo (b : N) (t : tree) (q : pos) : N * str :=
  (b + blen (tbefore t q), match tsub t q with Some x => ttext x | None => [] end).
Lemma tinfo_token_positions b t : map (tinfo b t) (token_positions t) = ttoks b t.
Proof.
  revert b. induction t as [k cs IH|k s] using tree_ind'; intros b.
  - rewrite token_positions_node, ttoks_node.
    enough (H : forall pre, map (tinfo b (Node k (pre ++ cs))) (tpl (length pre) cs) = ttoksl (b + blen (ctext pre)) cs).
    { specialize (H []). simpl in H. by rewrite N.add_0_r in H. }
    induction IH as [|c cs Hc _ IHcs]; intros pre; simpl; [done|]. rewrite map_app, map_map. f_equal.
    + rewrite <- (Hc (b + blen (ctext pre))). apply map_ext. intros q. unfold tinfo. simpl.
      rewrite lookup_app_r, Nat.sub_diag by lia. simpl. rewrite take_app. f_equal. rewrite blen_app. unfold ctext. lia.
    + specialize (IHcs (pre ++ [c])). rewrite app_length, Nat.add_1_r, <- app_assoc in IHcs. simpl in IHcs. etransitivity; [exact IHcs|].
      rewrite ctext_app, blen_app, ctext_cons. change (ctext []) with (@nil char). rewrite app_nil_r. f_equal. lia.
  - unfold token_positions. simpl. unfold tinfo. simpl. by rewrite N.add_0_r.
Qed.
(** proof device, no counterpart in the code *)
Fixpoint tiled (o : N) (l : list (N * str)) : Prop :=
  match l with [] => True | x :: l' => x.1 = o /\ tiled (o + blen x.2) l' end.
(** proof device, no counterpart in the code *)
Definition ttxt (l : list (N * str)) : str := concat (map snd l).
Lemma ttxt_app l1 l2 : ttxt (l1 ++ l2) = ttxt l1 ++ ttxt l2.
Proof. unfold ttxt. by rewrite map_app, concat_app. Qed.
Lemma tiled_app o l1 l2 : tiled o (l1 ++ l2) <-> tiled o l1 /\ tiled (o + blen (ttxt l1)) l2.
Proof.
  revert o. induction l1 as [|x l1 IH]; intros o; simpl.
  - unfold ttxt. simpl. rewrite N.add_0_r. tauto.
  - rewrite IH. unfold ttxt. simpl. rewrite blen_app, N.add_assoc. tauto.
Qed.
Lemma ttoks_tiled b t : tiled b (ttoks b t) /\ ttxt (ttoks b t) = ttext t.
Proof.
  revert b. induction t as [k cs IH|k s] using tree_ind'; intros b.
  - rewrite ttoks_node, ttext_node. revert b. induction IH as [|c cs Hc _ IHcs]; intros b; simpl; [done|].
    destruct (Hc b) as [H1 H2]. destruct (IHcs (b + blen (ttext c))) as [H3 H4].
    rewrite tiled_app, ttxt_app, H2, H4. done.
  - simpl. unfold ttxt. simpl. by rewrite app_nil_r.
Qed.

(** ** The chunks of a text *)
(** proof device, no counterpart in the code *)
Definition sconcat (l : list str) : str := concat l.
(** proof device, no counterpart in the code *)
Definition chunk1 (a b : N) (x : N * str) : res (list str) :=
  if N.min b (x.1 + blen x.2) <? N.max a x.1 then Ok []
  else m ← str_slice x.2 (N.max a x.1 - x.1) (N.min b (x.1 + blen x.2) - x.1); Ok [m].
(** proof device, no counterpart in the code *)
Fixpoint chunks (a b : N) (l : list (N * str)) : res (list str) :=
  match l with
  | [] => Ok []
  | x :: l' => c ← chunk1 a b x; r ← chunks a b l'; Ok (c ++ r)
  end.
Lemma chunk1_slice a b o s :
  a <= b -> sconcat <$> chunk1 a b (o, s) = str_slice s (N.min (a - o) (blen s)) (N.min (b - o) (blen s)).
Proof.
  intros Hab. unfold chunk1. simpl. destruct (N.ltb_spec (N.min b (o + blen s)) (N.max a o)).
  - (* disjoint *) simpl. destruct (N.le_gt_cases a o).
    + replace (N.min (a - o) (blen s)) with 0 by lia. replace (N.min (b - o) (blen s)) with 0 by lia. by rewrite str_slice_empty_start.
    + replace (N.min (a - o) (blen s)) with (blen s) by lia. replace (N.min (b - o) (blen s)) with (blen s) by lia. by rewrite str_slice_empty_end.
  - replace (N.max a o - o) with (N.min (a - o) (blen s)) by lia.
    replace (N.min b (o + blen s) - o) with (N.min (b - o) (blen s)) by lia.
    destruct (str_slice s _ _); simpl; [unfold sconcat; simpl; by rewrite app_nil_r|done].
Qed.
Lemma chunks_slice a b o l :
  a <= b -> tiled o l ->
  sconcat <$> chunks a b l = str_slice (ttxt l) (N.min (a - o) (blen (ttxt l))) (N.min (b - o) (blen (ttxt l))).
Proof.
  intros Hab. revert o. induction l as [|[o' s] l IH]; intros o Ht; simpl.
  - unfold ttxt. simpl. rewrite !N.min_0_r. by rewrite str_slice_empty_start.
  - simpl in Ht. destruct Ht as [-> Ht]. specialize (IH _ Ht).
    change (ttxt ((o, s) :: l)) with (s ++ ttxt l). rewrite str_slice_app by (rewrite ?blen_app; lia).
    rewrite !blen_app.
    replace (N.min (N.min (a - o) (blen s + blen (ttxt l))) (blen s)) with (N.min (a - o) (blen s)) by lia.
    replace (N.min (N.min (b - o) (blen s + blen (ttxt l))) (blen s)) with (N.min (b - o) (blen s)) by lia.
    rewrite <- chunk1_slice by done.
    replace (N.min (a - o) (blen s + blen (ttxt l)) - blen s) with (N.min (a - (o + blen s)) (blen (ttxt l))) by lia.
    replace (N.min (b - o) (blen s + blen (ttxt l)) - blen s) with (N.min (b - (o + blen s)) (blen (ttxt l))) by lia.
    rewrite <- IH. destruct (chunk1 a b (o, s)) as [c|]; simpl; [|done].
    destruct (chunks a b l) as [r|]; simpl; [|done]. unfold sconcat. by rewrite concat_app.
Qed.

(** ** Connecting the model *)
Section text.
Context (root : green) (Hwf : wfg root) (Hco : coherent root).

(** proof device, no counterpart in the code *)
Definition info (d : cursor) : N * str := (c_offset d, token_text d).
Lemma tokens_of p c :
  cursor_at root p = Some c ->
  exists l ds, descendants_with_tokens c = Ok l /\ ds = List.filter (fun el => negb (c_is_node el)) l /\
    map info ds = ttoks (c_offset c) (erase (c_green c)) /\
    Forall (fun d => c_is_node d = false /\ in_tree root d) ds.
Proof using Hwf Hco.
  intros Hc. destruct (descendants_with_tokens_at root p c Hwf Hco Hc) as (l&Hl&Hf). exists l, (List.filter (fun el => negb (c_is_node el)) l).
  split; [done|]. split; [done|]. set (t := erase (c_green c)) in *. rewrite <- tinfo_token_positions. unfold token_positions.
  pose proof (cursor_at_tsub _ _ _ Hc) as Hts.
  clear Hl. induction Hf as [|q d ps ds Hd Hf IH]; simpl; [by split|].
  assert (tsub t q = Some (erase (c_green d))) as Hq.
  { pose proof (cursor_at_tsub _ _ _ Hd) as Hx. rewrite tsub_app, Hts in Hx. exact Hx. }
  rewrite Hq. destruct IH as [IH1 IH2]. assert (c_is_node d = gis_node (c_green d)) as -> by done. destruct (c_green d) as [a k tl cs|a k s] eqn:Eg; simpl; [by split|].
  split.
  - rewrite IH1. f_equal. unfold info, tinfo. rewrite Hq. unfold token_text. rewrite Eg. simpl. f_equal.
    rewrite (cursor_at_off root Hwf _ _ Hd), (cursor_at_off root Hwf _ _ Hc), tbefore_app, Hts, blen_app. done.
  - constructor; [|done]. split; [unfold c_is_node; by rewrite Eg|]. by exists (p ++ q).
Qed.
Lemma c_tok_text d : c_is_node d = false -> gtext (c_green d) = token_text d.
Proof. unfold c_is_node, token_text. by destruct (c_green d). Qed.
Lemma twr_ok a b d :
  in_tree root d -> c_is_node d = false ->
  token_with_range (TR a b) d =
  Ok (if N.min b ((info d).1 + blen (info d).2) <? N.max a (info d).1 then None
      else Some (d, TR (N.max a (info d).1 - (info d).1) (N.min b ((info d).1 + blen (info d).2) - (info d).1))).
Proof using Hwf.
  intros [p Hp] Ht. unfold token_with_range. rewrite (c_text_range_at root Hwf _ _ Hp), (c_tok_text _ Ht). simpl.
  unfold range_intersect. simpl. destruct (N.ltb_spec (N.min b (c_offset d + blen (token_text d))) (N.max a (c_offset d))); [done|].
  unfold range_sub. simpl. destruct (N.leb_spec (c_offset d) (N.max a (c_offset d))); [done|lia].
Qed.
(** proof device, no counterpart in the code *)
Definition item_ok (x : cursor * range) : Prop := rstart x.2 <= rend x.2 /\ rend x.2 <= u32_max.
Lemma twr_all a b ds :
  Forall (fun d => c_is_node d = false /\ in_tree root d) ds ->
  exists its, filter_map_res (token_with_range (TR a b)) ds = Ok its /\ Forall item_ok its /\
    mapM chunk_text its = chunks a b (map info ds).
Proof using Hwf.
  induction 1 as [|d ds [Ht Hd] Hds IH]; [by exists []|]. destruct IH as (its&H1&H2&H3). simpl. rewrite (twr_ok a b _ Hd Ht), H1. simpl.
  unfold chunk1. rewrite <- H3. simpl. set (o := c_offset d) in *. set (s := token_text d) in *.
  destruct (N.ltb_spec (N.min b (o + blen s)) (N.max a o)).
  - exists its. split; [done|]. split; [done|]. simpl. by destruct (mapM chunk_text its).
  - eexists. split; [done|]. split.
    + constructor; [|done]. unfold item_ok. simpl. split; [lia|]. destruct Hd as [p Hp].
      pose proof (cursor_at_fits root Hwf _ _ Hp) as Hf. rewrite (c_tok_text _ Ht) in Hf. unfold o, s. lia.
    + cbn [mapM]. change (chunk_text (d, TR (N.max a o - o) (N.min b (o + blen s) - o))) with (str_slice s (N.max a o - o) (N.min b (o + blen s) - o)).
      destruct (str_slice s _ _); simpl; [|done].
      by destruct (mapM chunk_text its).
Qed.

(** the texts reachable from nodes of the tree *)
Definition text_in (t : stext) : Prop :=
  in_tree root (st_node t) /\ c_offset (st_node t) <= rstart (st_range t) /\ rstart (st_range t) <= rend (st_range t) /\
  rend (st_range t) <= c_offset (st_node t) + blen (gtext (c_green (st_node t))).
(** the string a text denotes *)
Definition text_str (t : stext) : res str :=
  str_slice (gtext (c_green (st_node t))) (rstart (st_range t) - c_offset (st_node t)) (rend (st_range t) - c_offset (st_node t)).
Lemma text_items t :
  text_in t ->
  exists its, tokens_with_ranges t = Ok its /\ Forall item_ok its /\ sconcat <$> mapM chunk_text its = text_str t.
Proof using Hwf Hco.
  destruct t as [c [a b]]. intros ([p Hp]&H1&H2&H3). simpl in *.
  destruct (tokens_of p c Hp) as (l&ds&Hl&->&Hi&Hf). unfold tokens_with_ranges. simpl. rewrite Hl. simpl.
  destruct (twr_all a b _ Hf) as (its&Hits&Hok&Hch). exists its. split; [done|]. split; [done|].
  rewrite Hch, Hi. destruct (ttoks_tiled (c_offset c) (erase (c_green c))) as [Ht1 Ht2].
  rewrite (chunks_slice a b _ _ H2 Ht1), Ht2. unfold text_str. simpl. change (ttext (erase (c_green c))) with (gtext (c_green c)).
  f_equal; lia.
Qed.
End text.

(** [try_fold] over chunks none of which panics *)
Fixpoint sfold {T E} (f : T -> str -> res (T + E)) (acc : T) (l : list str) : res (T + E) :=
  match l with
  | [] => Ok (inl acc)
  | x :: l' => r ← f acc x; match r with inl acc' => sfold f acc' l' | inr e => Ok (inr e) end
  end.
Lemma try_fold_ok {T E} (f : T -> str -> res (T + E)) acc its cs :
  mapM chunk_text its = Ok cs -> try_fold f acc its = sfold f acc cs.
Proof.
  revert acc cs. induction its as [|x its IH]; intros acc cs; simpl; [by intros [= <-]|].
  intros (s&Hs&(cs'&Hc&[= <-])%res_bind_ok)%res_bind_ok. rewrite Hs. simpl. destruct (f acc s) as [[acc'|e]|]; simpl; try done. by apply IH.
Qed.
(** the closures that never stop early panic as soon as one chunk does *)
Lemma try_fold_err {T E} (g : T -> str -> T) acc its e :
  mapM chunk_text its = Err e -> @try_fold T E (fun a s => Ok (inl (g a s))) acc its = Err e.
Proof.
  revert acc. induction its as [|x its IH]; intros acc; simpl; [done|].
  destruct (chunk_text x) as [s|]; simpl; [|congruence]. intros [H|(cs&Hc&[=])]%res_bind_err. by apply IH.
Qed.

(** ** The queries *)
Lemma add32_ok pr a b : a + b <= u32_max -> add32 pr a b = Ok (a + b).
Proof. intros H. unfold add32. apply N.leb_le in H. by rewrite H. Qed.
Lemma text_size_of_ok s : blen s <= u32_max -> text_size_of s = Ok (blen s).
Proof. intros H. unfold text_size_of. apply N.leb_le in H. by rewrite H. Qed.
Lemma str_find_app s t c :
  str_find (s ++ t) c = match str_find s c with Some n => Some n | None => (fun n => blen s + n) <$> str_find t c end.
Proof.
  induction s as [|d s IH]; simpl; [by destruct (str_find t c)|]. destruct (c =? d); [done|]. rewrite IH.
  destruct (str_find s c); [done|]. destruct (str_find t c); [|done]. simpl. f_equal. lia.
Qed.
Lemma sfold_find c cs acc :
  acc + blen (sconcat cs) <= u32_max ->
  sfold (fun acc chunk =>
        match str_find chunk c with
        | Some p => x ← add32 Checked acc p; Ok (inr x)
        | None => n ← text_size_of chunk; acc' ← add32 Checked acc n; Ok (inl acc')
        end) acc cs =
  Ok (match str_find (sconcat cs) c with Some p => inr (acc + p) | None => inl (acc + blen (sconcat cs)) end).
Proof.
  revert acc. induction cs as [|s cs IH]; intros acc; [intros; simpl; by rewrite N.add_0_r|].
  change (sconcat (s :: cs)) with (s ++ sconcat cs). rewrite blen_app, str_find_app. intros H. cbn [sfold].
  destruct (str_find s c) as [p|] eqn:Ef.
  - apply str_find_Some in Ef as (l&r&->&<-&_). rewrite blen_app in H. rewrite add32_ok by lia. done.
  - rewrite text_size_of_ok by lia. cbn. rewrite add32_ok by lia. cbn. rewrite IH by lia.
    destruct (str_find (sconcat cs) c); simpl; do 2 f_equal; lia.
Qed.
Lemma sfold_contains c cs :
  sfold (fun (_ : unit) chunk => Ok (if str_contains chunk c then inr Datatypes.tt else inl Datatypes.tt)) Datatypes.tt cs =
  Ok (if str_contains (sconcat cs) c then inr Datatypes.tt else inl Datatypes.tt).
Proof.
  induction cs as [|s cs IH]; [done|]. change (sconcat (s :: cs)) with (s ++ sconcat cs). simpl.
  destruct (str_contains s c) eqn:E.
  - assert (str_contains (s ++ sconcat cs) c = true) as ->; [|done]. apply str_contains_iff, elem_of_app. left. by apply str_contains_iff.
  - rewrite IH. assert (str_contains (s ++ sconcat cs) c = str_contains (sconcat cs) c) as ->; [|done].
    apply eq_true_iff_eq. rewrite !str_contains_iff, elem_of_app, <- (str_contains_iff s), E. intuition done.
Qed.
(** the char starting at a byte offset *)
Definition char_from (s : str) (o : N) : res (option char) :=
  if blen s <=? o then Ok None else r ← str_from s o; c ← unwrap (head r); Ok (Some c).
Lemma str_from_err s a e : str_from s a = Err e -> e = Panic.
Proof. unfold str_from. repeat case_match; congruence. Qed.
Lemma str_from_app_l s t o :
  o <= blen s -> str_from (s ++ t) o = (r ← str_from s o; Ok (r ++ t)).
Proof.
  intros H. destruct (str_from s o) as [r|e] eqn:E; simpl.
  - apply str_from_Ok in E as (p&->&<-). apply str_from_Ok. exists p. by rewrite <- app_assoc.
  - destruct (str_from (s ++ t) o) as [r|e'] eqn:E'; [|by rewrite (str_from_err _ _ _ E), (str_from_err _ _ _ E')].
    apply str_from_Ok in E' as (p&Hp&<-). exfalso. apply app_eq_inv in Hp as [(k&->&_)|(k&->&_)].
    + rewrite (proj2 (str_from_Ok _ _ k)) in E by eauto. done.
    + rewrite blen_app in H. assert (k = []) as -> by (apply blen_0; lia). rewrite app_nil_r in E.
      rewrite (proj2 (str_from_Ok s _ [])) in E; [done|]. exists s. by rewrite app_nil_r.
Qed.
Lemma str_from_app_r s t o : str_from (s ++ t) (blen s + o) = str_from t o.
Proof.
  destruct (str_from t o) as [r|e] eqn:E; simpl.
  - apply str_from_Ok in E as (p&->&<-). apply str_from_Ok. exists (s ++ p). by rewrite <- app_assoc, blen_app.
  - destruct (str_from (s ++ t) _) as [r|e'] eqn:E'; [|by rewrite (str_from_err _ _ _ E), (str_from_err _ _ _ E')].
    apply str_from_Ok in E' as (p&Hp&Hl). exfalso. apply app_eq_inv in Hp as [(k&->&->)|(k&->&->)].
    + rewrite blen_app in Hl. assert (k = []) as -> by (apply blen_0; lia). assert (o = 0) as -> by (simpl in *; lia).
      unfold str_from in E. by destruct t.
    + rewrite blen_app in Hl. rewrite (proj2 (str_from_Ok (k ++ r) o r)) in E; [done|]. exists k. split; [done|lia].
Qed.
Lemma sfold_char_at o cs start :
  start + blen (sconcat cs) <= u32_max -> start <= o ->
  sfold (fun start chunk =>
        n ← text_size_of chunk; e ← add32 Checked start n;
        if (start <=? o)%N && (o <? e)%N then
          s ← str_from chunk (o - start); c ← unwrap (head s); Ok (inr c)
        else Ok (inl e)) start cs =
  (r ← char_from (sconcat cs) (o - start); Ok (match r with Some c => inr c | None => inl (start + blen (sconcat cs)) end)).
Proof.
  revert start.
  match goal with |- context [sfold ?f _ _] => set (F := f) end.
  induction cs as [|s cs IH]; intros start Hf Hs.
  { unfold char_from. simpl. destruct (N.leb_spec 0 (o - start)); [|lia]. simpl. by rewrite N.add_0_r. }
  change (sconcat (s :: cs)) with (s ++ sconcat cs) in *. rewrite blen_app in Hf. cbn [sfold].
  assert (F start s = if o <? start + blen s then r ← str_from s (o - start); c ← unwrap (head r); Ok (inr c) else Ok (inl (start + blen s))) as ->.
  { unfold F. rewrite text_size_of_ok by lia. cbn. rewrite add32_ok by lia. cbn.
    assert ((start <=? o) = true) as -> by (by apply N.leb_le). by rewrite andb_true_l. }
  unfold char_from. rewrite blen_app. destruct (N.ltb_spec o (start + blen s)).
  - destruct (N.leb_spec (blen s + blen (sconcat cs)) (o - start)); [lia|]. rewrite str_from_app_l by lia.
    destruct (str_from s (o - start)) as [r|] eqn:E; [|done]. cbn.
    assert (r <> []) as Hr. { intros ->. apply str_from_Ok in E as (p&Hp&Hq). rewrite app_nil_r in Hp. subst p. lia. }
    destruct r; [done|]. done.
  - cbn [mbind res_bind]. rewrite IH by lia. unfold char_from.
    replace (str_from (s ++ sconcat cs) (o - start)) with (str_from (sconcat cs) (o - (start + blen s))).
    2:{ rewrite <- (str_from_app_r s). f_equal. lia. }
    destruct (N.leb_spec (blen (sconcat cs)) (o - (start + blen s))), (N.leb_spec (blen s + blen (sconcat cs)) (o - start)); try lia.
    + cbn. do 2 f_equal. lia.
    + destruct (str_from _ _) as [r|]; [|done]. cbn. by destruct r.
Qed.
Lemma sfold_eq_str cs rhs :
  (r ← @sfold str unit (fun rhs chunk =>
        if negb (starts_with rhs chunk) then Ok (inr Datatypes.tt)
        else rest ← str_from rhs (blen chunk); Ok (inl rest)) rhs cs;
   Ok (match r with inl rest => match rest with [] => true | _ => false end | inr _ => false end)) =
  Ok (bool_decide (sconcat cs = rhs)).
Proof.
  revert rhs. induction cs as [|s cs IH]; intros rhs.
  { by destruct rhs. }
  change (sconcat (s :: cs)) with (s ++ sconcat cs) in *. cbn [sfold].
  destruct (starts_with rhs s) eqn:E; cbn [negb mbind res_bind].
  - apply starts_with_iff in E as (q&->). rewrite (proj2 (str_from_Ok (s ++ q) (blen s) q)) by eauto. cbn [mbind res_bind]. rewrite IH.
    f_equal. apply bool_decide_ext. split; [by intros ->|by intros ?%app_inv_head].
  - f_equal. symmetry. apply bool_decide_eq_false. intros <-. assert (starts_with (s ++ sconcat cs) s = true); [|congruence].
    apply starts_with_iff. eauto.
Qed.

(** ** Comparing two texts *)
Lemma chunk_len x s : chunk_text x = Ok s -> rstart x.2 + blen s = rend x.2.
Proof. unfold chunk_text. intros H%str_slice_len. lia. Qed.
Lemma chunk_empty x s : chunk_text x = Ok s -> range_is_empty x.2 = bool_decide (s = []).
Proof.
  intros H%chunk_len. unfold range_is_empty. apply eq_true_iff_eq. rewrite N.eqb_eq, bool_decide_eq_true, <- blen_nil_iff. lia.
Qed.
Lemma chunk_advance x u v :
  chunk_text x = Ok (u ++ v) -> chunk_text (x.1, TR (rstart x.2 + blen u) (rend x.2)) = Ok v.
Proof.
  unfold chunk_text. simpl. intros (p&q&H1&H2&H3)%str_slice_Ok. apply str_slice_Ok. exists (p ++ u), q.
  rewrite H1, !blen_app in *. split; [by rewrite <- !app_assoc|]. lia.
Qed.
Lemma mapM_cons_ok x its ss :
  mapM chunk_text (x :: its) = Ok ss -> exists s ss', ss = s :: ss' /\ chunk_text x = Ok s /\ mapM chunk_text its = Ok ss'.
Proof. simpl. intros (s&Hs&(ss'&Hss&[= <-])%res_bind_ok)%res_bind_ok. eauto. Qed.
(** proof device, no counterpart in the code *)
Definition ne (x : cursor * range) : nat := if range_is_empty x.2 then 0 else 1.
Lemma skip_empty_spec xs : forall x sx cs,
  chunk_text x = Ok sx -> mapM chunk_text xs = Ok cs -> Forall item_ok (x :: xs) ->
  match skip_empty x xs with
  | None => sx ++ sconcat cs = []
  | Some (x', xs') =>
      exists sx' cs', chunk_text x' = Ok sx' /\ mapM chunk_text xs' = Ok cs' /\ sx ++ sconcat cs = sx' ++ sconcat cs' /\
        sx' <> [] /\ Forall item_ok (x' :: xs') /\ (ne x + length xs >= 1 + length xs')%nat
  end.
Proof.
  induction xs as [|x' xs IH]; intros x sx cs Hx Hxs Hok; simpl.
  - rewrite (chunk_empty _ _ Hx). injection Hxs as <-. case_bool_decide as Hs; [by subst|].
    exists sx, []. unfold ne. rewrite (chunk_empty _ _ Hx), bool_decide_eq_false_2 by done. simpl. split_and!; auto.
  - destruct (mapM_cons_ok _ _ _ Hxs) as (s&ss&->&Hs&Hss). inversion Hok; subst.
    unfold ne. rewrite (chunk_empty _ _ Hx). case_bool_decide as Hs'.
    + subst sx. specialize (IH _ _ _ Hs Hss ltac:(done)).
      destruct (skip_empty x' xs) as [[x'' xs'']|] eqn:E; [|exact IH].
      destruct IH as (sx'&cs'&?&?&?&?&?&Hl). exists sx', cs'. split_and!; auto. unfold ne in Hl. case_match; simpl; lia.
    + exists sx, (s :: ss). split_and!; auto.
Qed.
Lemma mapM_all_empty its ss : mapM chunk_text its = Ok ss -> forallb (fun it => range_is_empty it.2) its = bool_decide (sconcat ss = []).
Proof.
  revert ss. induction its as [|x its IH]; intros ss H.
  - injection H as <-. done.
  - destruct (mapM_cons_ok _ _ _ H) as (s&ss'&->&Hs&Hss). simpl. rewrite (chunk_empty _ _ Hs), (IH _ Hss).
    apply eq_true_iff_eq. rewrite andb_true_iff, !bool_decide_eq_true. unfold sconcat. simpl. split; [intros [-> ->]; done|].
    intros ?%app_nil. done.
Qed.
(** proof device, no counterpart in the code *)
Definition verdict (r : bool * list (cursor * range) * list (cursor * range)) : bool :=
  let '(mismatch, lhs, rhs) := r in
  negb mismatch && forallb (fun it => range_is_empty it.2) lhs && forallb (fun it => range_is_empty it.2) rhs.
Lemma zip_loop_ok fuel : forall x xs y ys sx cs sy ds,
  chunk_text x = Ok sx -> mapM chunk_text xs = Ok cs -> chunk_text y = Ok sy -> mapM chunk_text ys = Ok ds ->
  Forall item_ok (x :: xs) -> Forall item_ok (y :: ys) ->
  blen (sx ++ sconcat cs) = blen (sy ++ sconcat ds) ->
  (1 <= fuel)%nat -> (ne x + length xs + ne y + length ys <= fuel)%nat ->
  exists r, zip_loop fuel x xs y ys = Ok r /\ verdict r = bool_decide (sx ++ sconcat cs = sy ++ sconcat ds).
Proof.
  induction fuel as [|fuel IH]; intros x xs y ys sx cs sy ds Hx Hxs Hy Hys Hokx Hoky Hl Hf1 Hf2; [lia|]. cbn [zip_loop].
  pose proof (skip_empty_spec _ _ _ _ Hx Hxs Hokx) as Sx. pose proof (skip_empty_spec _ _ _ _ Hy Hys Hoky) as Sy.
  destruct (skip_empty x xs) as [[x' xs']|].
  2:{ rewrite Sx in Hl. simpl in Hl. symmetry in Hl. apply blen_0 in Hl. eexists. split; [done|]. unfold verdict. simpl.
      rewrite (mapM_all_empty _ _ Hys). rewrite Sx, Hl. apply app_nil in Hl as [_ ->]. done. }
  destruct Sx as (sx'&cs'&Hx'&Hxs'&Ex&Nx&Hokx'&Lx). rewrite Ex in Hl |- *.
  destruct (skip_empty y ys) as [[y' ys']|].
  2:{ rewrite Sy in Hl. simpl in Hl. apply blen_0, app_nil in Hl as [Hl _]. done. }
  destruct Sy as (sy'&ds'&Hy'&Hys'&Ey&Ny&Hoky'&Ly). rewrite Ey in Hl |- *. clear Hx Hxs Hy Hys Hokx Hoky Ex Ey sx cs sy ds.
  rewrite Hx', Hy'. cbn [mbind res_bind].
  pose proof (chunk_len _ _ Hx') as Lxx. pose proof (chunk_len _ _ Hy') as Lyy.
  inversion Hokx' as [|?? [Ox1 Ox2] Hxs1]; subst. inversion Hoky' as [|?? [Oy1 Oy2] Hys1]; subst.
  unfold range_len. replace (rend x'.2 - rstart x'.2) with (blen sx') by lia. replace (rend y'.2 - rstart y'.2) with (blen sy') by lia.
  destruct (starts_with sx' sy') eqn:E1; [|destruct (starts_with sy' sx') eqn:E2].
  - apply starts_with_iff in E1 as (q&->). rewrite orb_true_l. cbn [negb]. rewrite blen_app in *.
    replace (N.min (blen sy' + blen q) (blen sy')) with (blen sy') by lia. rewrite !add32_ok by lia. cbn [mbind res_bind].
    pose proof (chunk_advance _ _ _ Hx') as Ax. pose proof (chunk_advance y' sy' [] ltac:(by rewrite app_nil_r)) as Ay.
    destruct (IH _ _ _ _ _ _ _ _ Ax Hxs' Ay Hys') as (r&Hr&Hv).
    + constructor; [|done]. unfold item_ok. simpl. lia.
    + constructor; [|done]. unfold item_ok. simpl. lia.
    + rewrite !blen_app in *. simpl. lia.
    + lia.
    + unfold ne at 2. rewrite (chunk_empty _ _ Ay). cbn. unfold ne. case_match; lia.
    + exists r. split; [done|]. rewrite Hv. apply bool_decide_ext. rewrite <- app_assoc. simpl. split; [by intros ->|]. by intros ?%app_inv_head.
  - apply starts_with_iff in E2 as (q&->). rewrite orb_true_r. cbn [negb]. rewrite blen_app in *.
    replace (N.min (blen sx') (blen sx' + blen q)) with (blen sx') by lia. rewrite !add32_ok by lia. cbn [mbind res_bind].
    pose proof (chunk_advance _ _ _ Hy') as Ay. pose proof (chunk_advance x' sx' [] ltac:(by rewrite app_nil_r)) as Ax.
    destruct (IH _ _ _ _ _ _ _ _ Ax Hxs' Ay Hys') as (r&Hr&Hv).
    + constructor; [|done]. unfold item_ok. simpl. lia.
    + constructor; [|done]. unfold item_ok. simpl. lia.
    + rewrite !blen_app in *. simpl. lia.
    + lia.
    + unfold ne at 1. rewrite (chunk_empty _ _ Ax). cbn. unfold ne. case_match; lia.
    + exists r. split; [done|]. rewrite Hv. apply bool_decide_ext. rewrite <- app_assoc. simpl. split; [by intros ->|]. by intros ?%app_inv_head.
  - rewrite orb_false_l. cbn [negb]. eexists. split; [done|]. unfold verdict. cbn [negb]. rewrite !andb_false_l. symmetry. apply bool_decide_eq_false.
    intros H. apply app_eq_inv in H as [(k&->&_)|(k&->&_)].
    + assert (starts_with (sy' ++ k) sy' = true) by (apply starts_with_iff; eauto). congruence.
    + assert (starts_with (sx' ++ k) sx' = true) by (apply starts_with_iff; eauto). congruence.
Qed.
Lemma zip_texts_ok xs ys cs ds :
  mapM chunk_text xs = Ok cs -> mapM chunk_text ys = Ok ds -> Forall item_ok xs -> Forall item_ok ys ->
  blen (sconcat cs) = blen (sconcat ds) ->
  exists r, zip_texts xs ys = Ok r /\ verdict r = bool_decide (sconcat cs = sconcat ds).
Proof.
  intros Hx Hy Ox Oy Hl. destruct xs as [|x xs].
  { injection Hx as <-. simpl in Hl. symmetry in Hl. apply blen_0 in Hl. eexists. split; [done|]. simpl. rewrite (mapM_all_empty _ _ Hy), Hl. done. }
  destruct (mapM_cons_ok _ _ _ Hx) as (sx&cs'&->&Hsx&Hxs). destruct ys as [|y ys].
  { injection Hy as <-. simpl in Hl. apply blen_0 in Hl as Hl'. eexists. split; [done|]. unfold verdict. simpl.
    rewrite (mapM_all_empty _ _ Hxs), Hl'. apply app_nil in Hl' as [_ ->]. done. }
  destruct (mapM_cons_ok _ _ _ Hy) as (sy&ds'&->&Hsy&Hys). cbn [zip_texts].
  apply zip_loop_ok; try done; [lia|]. unfold ne. repeat case_match; lia.
Qed.

(** ** Texts obtainable through the API *)
(** proof device, no counterpart in the code *)
Inductive text_of (root : green) : stext -> Prop :=
| text_new p c t : cursor_at root p = Some c -> c_is_node c = true -> st_new c = Ok t -> text_of root t
| text_slice pr t rs re t' :
    text_of root t -> default 0 rs <= u32_max -> default 0 re <= u32_max -> st_slice pr t rs re = Ok t' -> text_of root t'.

Lemma st_slice_gen pr t rs re :
  rstart (st_range t) <= rend (st_range t) -> rend (st_range t) <= u32_max -> default 0 rs <= u32_max -> default 0 re <= u32_max ->
  let s := default 0 rs in let e := default (st_len t) re in
  st_slice pr t rs re =
  if (s <=? e) && (e <=? st_len t) then Ok (ST (st_node t) (TR (rstart (st_range t) + s) (rstart (st_range t) + e))) else Err Panic.
Proof.
  intros H2 Hf Hs He s e. destruct t as [c [a b]]. unfold st_slice, st_len, range_len in *. simpl in *.
  fold s. fold e. fold s in Hs.
  assert (e <= u32_max) as He'. { unfold e. destruct re; simpl in *; [done|]. unfold st_len, range_len. simpl. lia. }
  clearbody s e. clear rs re He.
  destruct (N.leb_spec s e); [|by rewrite andb_false_l]. rewrite andb_true_l. simpl.
  unfold add32. destruct (N.leb_spec (a + s) u32_max) as [Ha|Ha].
  - simpl. destruct (N.leb_spec (a + s + (e - s)) u32_max) as [Hb|Hb].
    + simpl. destruct (N.leb_spec (a + s) (a + s + (e - s))); [|lia]. simpl. unfold contains_range. simpl.
      destruct (N.leb_spec a (a + s)); [|lia]. rewrite andb_true_l. replace (a + s + (e - s)) with (a + e) by lia.
      destruct (N.leb_spec (a + e) b), (N.leb_spec e (b - a)); try lia; done.
    + destruct (N.leb_spec e (b - a)); [lia|]. destruct pr; simpl; [done|].
      assert ((a + s + (e - s)) mod (u32_max + 1) < a + s) as Hm.
      { replace ((a + s + (e - s)) mod (u32_max + 1)) with (a + s + (e - s) - (u32_max + 1)); [lia|].
        apply (N.mod_unique _ _ 1); lia. }
      destruct (N.leb_spec (a + s) ((a + s + (e - s)) mod (u32_max + 1))); [lia|done].
  - destruct (N.leb_spec e (b - a)); [lia|]. destruct pr; simpl; [done|].
    replace ((a + s) mod (u32_max + 1)) with (a + s - (u32_max + 1)).
    2:{ apply (N.mod_unique _ _ 1); lia. }
    set (a' := a + s - (u32_max + 1)). assert (a' < a) by (unfold a'; lia). clearbody a'. destruct (N.leb_spec (a' + (e - s)) u32_max) as [Hb|Hb].
    + simpl. destruct (N.leb_spec a' (a' + (e - s))); [|lia]. simpl. unfold contains_range. simpl. destruct (N.leb_spec a a'); [lia|done].
    + simpl. destruct (N.leb_spec a' ((a' + (e - s)) mod (u32_max + 1))); [|done]. simpl. unfold contains_range. simpl.
      destruct (N.leb_spec a a'); [lia|done].
Qed.
Section api.
Context (root : green) (Hwf : wfg root) (Hco : coherent root).
Lemma text_fits t : text_in root t -> rend (st_range t) <= u32_max.
Proof using Hwf. intros ([p Hp]&H1&H2&H3). pose proof (cursor_at_fits root Hwf _ _ Hp). lia. Qed.
Lemma st_slice_spec pr t rs re :
  text_in root t -> default 0 rs <= u32_max -> default 0 re <= u32_max ->
  let s := default 0 rs in let e := default (st_len t) re in
  st_slice pr t rs re =
  if (s <=? e) && (e <=? st_len t) then Ok (ST (st_node t) (TR (rstart (st_range t) + s) (rstart (st_range t) + e))) else Err Panic.
Proof using Hwf. intros Ht. apply st_slice_gen; [apply Ht|by apply text_fits]. Qed.
Lemma text_of_in t : text_of root t -> text_in root t.
Proof using Hwf.
  induction 1 as [p c t Hc Hn Ht|pr t rs re t' Ht IH Hs He Hsl].
  - unfold st_new in Ht. rewrite (c_text_range_at root Hwf _ _ Hc) in Ht. injection Ht as <-. unfold text_in. simpl.
    split; [by exists p|]. lia.
  - pose proof (st_slice_spec pr t rs re IH Hs He) as E. simpl in E. rewrite Hsl in E. clear Hs Hsl Ht.
    destruct IH as (?&?&?&?). unfold text_in, st_len, range_len in *.
    destruct (N.leb_spec (default 0 rs) (default (rend (st_range t) - rstart (st_range t)) re)); [|done]. rewrite andb_true_l in E.
    destruct (N.leb_spec (default (rend (st_range t) - rstart (st_range t)) re) (rend (st_range t) - rstart (st_range t))); [|done].
    injection E as ->. simpl. split; [done|]. lia.
Qed.
Lemma st_to_string_spec t : text_in root t -> st_to_string t = text_str t.
Proof using Hwf Hco.
  intros Ht. destruct (text_items root Hwf Hco t Ht) as (its&Hi&_&Hc). unfold st_to_string, try_fold_chunks. rewrite Hi. cbn [mbind res_bind].
  rewrite <- Hc. destruct (mapM chunk_text its) as [cs|e] eqn:E.
  - rewrite (try_fold_ok _ _ _ _ E). clear. cbn. enough (H : forall acc, sfold (fun acc0 chunk => Ok (inl (acc0 ++ chunk))) acc cs = Ok (@inl str unit (acc ++ sconcat cs))) by (by rewrite H).
    induction cs as [|s cs IH]; intros acc; cbn [sfold]; [by rewrite app_nil_r|]. cbn. rewrite IH. by rewrite <- app_assoc.
  - rewrite (try_fold_err (fun a s => a ++ s) _ _ _ E). done.
Qed.
Lemma st_chunks_spec t : text_in root t -> sconcat <$> st_chunks t = text_str t.
Proof using Hwf Hco.
  intros Ht. destruct (text_items root Hwf Hco t Ht) as (its&Hi&_&Hc). unfold st_chunks, try_fold_chunks. rewrite Hi. cbn [mbind res_bind].
  rewrite <- Hc. destruct (mapM chunk_text its) as [cs|e] eqn:E.
  - rewrite (try_fold_ok _ _ _ _ E). clear. enough (H : forall acc, sfold (fun acc0 chunk => Ok (inl (acc0 ++ [chunk]))) acc cs = Ok (@inl (list str) unit (acc ++ cs))) by (by rewrite H).
    induction cs as [|s cs IH]; intros acc; cbn [sfold]; [by rewrite app_nil_r|]. cbn. rewrite IH. by rewrite <- app_assoc.
  - rewrite (try_fold_err (fun a s => a ++ [s]) _ _ _ E). done.
Qed.
Lemma st_fold_ok {T E} t m (f : T -> str -> res (T + E)) acc :
  text_in root t -> text_str t = Ok m ->
  exists cs, try_fold_chunks t acc f = sfold f acc cs /\ sconcat cs = m /\ blen m <= u32_max.
Proof using Hwf Hco.
  intros Ht Hm. destruct (text_items root Hwf Hco t Ht) as (its&Hi&_&Hc). unfold try_fold_chunks. rewrite Hi. cbn [mbind res_bind].
  rewrite Hm in Hc. destruct (mapM chunk_text its) as [cs|e] eqn:Ec; [|done]. injection Hc as Hc. exists cs.
  rewrite (try_fold_ok _ _ _ _ Ec). split; [done|]. split; [done|]. apply str_slice_len in Hm. pose proof (text_fits t Ht). lia.
Qed.
Lemma st_len_spec t m : text_in root t -> text_str t = Ok m -> st_len t = blen m.
Proof. intros Ht Hm%str_slice_len. destruct Ht as (_&?&?&?). unfold st_len, range_len. lia. Qed.
Lemma st_eqb_spec t : text_in root t -> forall root2, wfg root2 -> coherent root2 -> forall t2, text_in root2 t2 ->
  forall m1 m2, text_str t = Ok m1 -> text_str t2 = Ok m2 -> st_eqb t t2 = Ok (bool_decide (m1 = m2)).
Proof using Hwf Hco.
  intros Ht root2 Hwf2 Hco2 t2 Ht2 m1 m2 H1 H2. unfold st_eqb. fold (st_len t). fold (st_len t2).
  rewrite (st_len_spec _ _ Ht H1). assert (st_len t2 = blen m2) as ->.
  { apply str_slice_len in H2. destruct Ht2 as (_&?&?&?). unfold st_len, range_len. lia. }
  destruct (N.eqb_spec (blen m1) (blen m2)) as [Hl|Hl]; cbn [negb].
  2:{ f_equal. symmetry. apply bool_decide_eq_false. by intros ->. }
  destruct (text_items root Hwf Hco t Ht) as (its&Hi&Ho&Hc). destruct (text_items root2 Hwf2 Hco2 t2 Ht2) as (its2&Hi2&Ho2&Hc2).
  rewrite Hi, Hi2. cbn [mbind res_bind]. rewrite H1 in Hc. rewrite H2 in Hc2.
  destruct (mapM chunk_text its) as [cs|e] eqn:Ec; [|done]. injection Hc as <-.
  destruct (mapM chunk_text its2) as [ds|e] eqn:Ed; [|done]. injection Hc2 as <-.
  destruct (zip_texts_ok _ _ _ _ Ec Ed Ho Ho2 Hl) as ([[mm l] r]&Hz&Hv). rewrite Hz. cbn [mbind res_bind]. by rewrite <- Hv.
Qed.
End api.
Lemma str_slice_mid p m q s e : s <= e -> e <= blen m -> str_slice (p ++ m ++ q) (blen p + s) (blen p + e) = str_slice m s e.
Proof.
  intros H1 H2. rewrite str_slice_app by (rewrite ?blen_app; lia). rewrite !N.min_r by lia. rewrite str_slice_empty_end. cbn.
  replace (blen p + s - blen p) with s by lia. replace (blen p + e - blen p) with e by lia.
  rewrite str_slice_app by lia. rewrite !N.min_l by lia. replace (s - blen m) with 0 by lia. replace (e - blen m) with 0 by lia.
  rewrite str_slice_empty_start. destruct (str_slice m s e); [cbn; by rewrite app_nil_r|done].
Qed.
