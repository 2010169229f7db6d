(** * Facts about first/last/next/prev token *)
From Verif Require Export Walk.

(** ** Specification side *)
Lemma filter_map_map {A B C} (f : B -> option C) (g : A -> B) l : filter_map f (map g l) = filter_map (fun x => f (g x)) l.
Proof. induction l as [|x l IH]; simpl; [done|]. rewrite IH. by destruct (f (g x)). Qed.
Lemma filter_map_ext_map {A B C} (f : A -> option C) (f' : A -> option B) (g : B -> C) l :
  (forall x, f x = g <$> f' x) -> filter_map f l = map g (filter_map f' l).
Proof. intros H. induction l as [|x l IH]; simpl; [done|]. rewrite H, IH. by destruct (f' x). Qed.

(** proof device, no counterpart in the code *)
Fixpoint tpl (i : nat) (cs : list tree) : list pos :=
  match cs with
  | [] => []
  | c :: cs' => map (cons i) (token_positions c) ++ tpl (S i) cs'
  end.
Lemma token_positions_tok k s : token_positions (Token k s) = [[]].
Proof. done. Qed.
Lemma token_positions_node k cs : token_positions (Node k cs) = tpl 0 cs.
Proof.
  unfold token_positions at 1. rewrite positions_node. simpl.
  enough (H : forall pre, filter_map (fun p => match tsub (Node k (pre ++ cs)) p with Some (Token _ _) => Some p | _ => None end)
                (positions_list (length pre) cs) = tpl (length pre) cs) by exact (H []).
  induction cs as [|c cs IH]; intros pre; simpl; [done|]. rewrite filter_map_app. f_equal.
  - rewrite filter_map_map. unfold token_positions. apply filter_map_ext_map. intros q. simpl.
    rewrite lookup_app_r, Nat.sub_diag by lia. simpl. destruct (tsub c q) as [[]|]; done.
  - specialize (IH (pre ++ [c])). rewrite app_length, Nat.add_1_r, <- app_assoc in IH. exact IH.
Qed.
Lemma tpl_app i cs1 cs2 : tpl i (cs1 ++ cs2) = tpl i cs1 ++ tpl (i + length cs1) cs2.
Proof.
  revert i. induction cs1 as [|c cs1 IH]; intros i; simpl; [by rewrite Nat.add_0_r|].
  rewrite IH, <- app_assoc. by rewrite Nat.add_succ_comm.
Qed.
Lemma elem_of_token_positions t p : p ∈ token_positions t <-> exists k s, tsub t p = Some (Token k s).
Proof.
  unfold token_positions. rewrite elem_of_filter_map. split.
  - intros (x&Hx&H). destruct (tsub t x) as [[|k s]|] eqn:E; try done. injection H as ->. eauto.
  - intros (k&s&H). exists p. rewrite H. split; [|done]. apply elem_of_positions. eauto.
Qed.
Lemma NoDup_token_positions t : NoDup (token_positions t).
Proof.
  unfold token_positions. pose proof (NoDup_positions t) as H. revert H. generalize (positions t). intros l.
  induction 1 as [|p l Hp _ IH]; simpl; [constructor|].
  destruct (tsub t p) as [[|k s]|]; [done| |done]. constructor; [|done].
  rewrite elem_of_filter_map. intros (x&Hx&H). destruct (tsub t x) as [[|]|]; try done. by injection H as ->.
Qed.

(** proof device, no counterpart in the code *)
Fixpoint no_empty_list (cs : list tree) : Prop :=
  match cs with [] => True | c :: cs' => no_empty_nodes c /\ no_empty_list cs' end.
Lemma no_empty_node k cs : no_empty_nodes (Node k cs) <-> cs <> [] /\ no_empty_list cs.
Proof. done. Qed.
Lemma no_empty_list_lookup cs i c : no_empty_list cs -> cs !! i = Some c -> no_empty_nodes c.
Proof. revert i. induction cs as [|d cs IH]; intros [|i]; simpl; try done; intros [H1 H2]; [by intros [= ->]|by apply IH]. Qed.
(** proof device, no counterpart in the code *)
Fixpoint rm_go (i : nat) (cs : list tree) : option pos :=
  match cs with
  | [] => None
  | c :: cs' => match cs' with [] => cons i <$> rightmost c | _ :: _ => rm_go (S i) cs' end
  end.
Lemma rightmost_node k cs : rightmost (Node k cs) = rm_go 0 cs.
Proof. done. Qed.
Lemma rm_go_last i cs : rm_go i cs = match last cs with Some c => cons (i + length cs - 1) <$> rightmost c | None => None end.
Proof.
  revert i. induction cs as [|c cs IH]; intros i; [done|]. cbn [rm_go]. destruct cs as [|d cs].
  - simpl. by replace (i + 1 - 1) with i by lia.
  - rewrite IH. replace (S i + length (d :: cs) - 1) with (i + length (c :: d :: cs) - 1) by (simpl; lia). done.
Qed.
Lemma leftmost_head t : no_empty_nodes t -> leftmost t = head (token_positions t) /\ is_Some (leftmost t).
Proof.
  induction t as [k cs IH|k s] using tree_ind'; [|by eauto].
  intros [Hne Hl]%no_empty_node. rewrite token_positions_node. destruct cs as [|c cs]; [done|]. simpl.
  apply Forall_cons in IH as [IHc _]. destruct Hl as [Hc _]. destruct (IHc Hc) as [H [q Hq]]. rewrite Hq in H |- *.
  destruct (token_positions c) as [|q' l]; [done|]. simpl in H. injection H as ->. simpl. eauto.
Qed.
Lemma head_app_cons {A} (l1 l2 : list A) x : head l1 = Some x -> head (l1 ++ l2) = Some x.
Proof. by destruct l1. Qed.
Lemma last_app_some {A} (l1 l2 : list A) x : last l2 = Some x -> last (l1 ++ l2) = Some x.
Proof. intros H. by rewrite last_app, H. Qed.
Lemma last_map {A B} (f : A -> B) l : last (map f l) = f <$> last l.
Proof. apply fmap_last. Qed.
Lemma last_cons_map (i : nat) (l : list pos) q : last l = Some q -> last (map (cons i) l) = Some (i :: q).
Proof. intros H. unfold pos in *. by rewrite last_map, H. Qed.
Lemma rightmost_last t : no_empty_nodes t -> rightmost t = last (token_positions t) /\ is_Some (rightmost t).
Proof.
  induction t as [k cs IH|k s] using tree_ind'; [|by eauto].
  intros [Hne Hl]%no_empty_node. rewrite token_positions_node, rightmost_node, rm_go_last.
  destruct cs as [|c cs _] using rev_ind; [done|]. rewrite last_snoc, app_length. simpl.
  apply Forall_app in IH as [_ IH]. apply Forall_cons in IH as [IHc _].
  assert (Hc : no_empty_nodes c).
  { eapply (no_empty_list_lookup _ (length cs)); [exact Hl|]. by rewrite lookup_app_r, Nat.sub_diag. }
  destruct (IHc Hc) as [H [q Hq]]. rewrite Hq in H |- *. simpl.
  replace (length cs + 1 - 1) with (length cs) by lia. split; [|eauto].
  rewrite tpl_app. simpl. rewrite app_nil_r. symmetry. apply last_app_some. by apply last_cons_map.
Qed.
Lemma tsub_no_empty t p x : no_empty_nodes t -> tsub t p = Some x -> no_empty_nodes x.
Proof.
  revert t. induction p as [|i p IH]; intros t Ht; simpl; [by intros [= ->]|].
  destruct t as [k cs|]; simpl; [|done]. destruct (cs !! i) as [c|] eqn:E; [|done].
  apply IH. destruct Ht as [_ Hl]. by eapply no_empty_list_lookup.
Qed.

(** the tokens before and after a token *)
Lemma neighbours t p :
  no_empty_nodes t -> p ∈ token_positions t ->
  exists l1 l2, token_positions t = l1 ++ p :: l2 /\
    head l2 = (q ← up_next t p; x ← tsub t q; app q <$> leftmost x) /\
    last l1 = (q ← up_prev t p; x ← tsub t q; app q <$> rightmost x).
Proof.
  revert p. induction t as [k cs IH|k s] using tree_ind'; intros p Hne Hp.
  2:{ apply elem_of_list_singleton in Hp as ->. exists [], []. done. }
  apply elem_of_token_positions in Hp as (k'&s&Hs). destruct p as [|i p]; [done|]. simpl in Hs.
  destruct (cs !! i) as [c|] eqn:Ec; [|done]. destruct Hne as [_ Hl].
  pose proof (no_empty_list_lookup _ _ _ Hl Ec) as Hc.
  rewrite Forall_lookup in IH. destruct (IH i c Ec p Hc) as (m1&m2&Hm&Hm2&Hm1).
  { apply elem_of_token_positions. eauto. }
  pose proof (lookup_lt_Some _ _ _ Ec) as Hlt.
  exists (tpl 0 (take i cs) ++ map (cons i) m1), (map (cons i) m2 ++ tpl (S i) (drop (S i) cs)). split_and!.
  - rewrite token_positions_node, <- (take_drop_middle _ _ _ Ec) at 1. rewrite tpl_app. simpl.
    rewrite take_length, Nat.min_l by lia. rewrite Hm, map_app. simpl. by rewrite <- !app_assoc.
  - simpl. rewrite Ec. simpl. destruct (up_next c p) as [q|] eqn:Eq.
    + simpl. rewrite Ec. simpl in Hm2. destruct (tsub c q) as [x|] eqn:Ex.
      * simpl in *. destruct (leftmost_head x (tsub_no_empty _ _ _ Hc Ex)) as [_ [q' Hq']]. rewrite Hq' in Hm2 |- *.
        destruct m2 as [|y m2]; [done|]. simpl in Hm2. injection Hm2 as ->. done.
      * exfalso. clear -Eq Ex. revert c q Eq Ex. induction p as [|j p IHp]; intros c q; simpl; [done|].
        destruct (tchildren c !! j) as [d|] eqn:Ed; simpl.
        -- destruct (up_next d p) as [q'|] eqn:Eq'.
           ++ intros [= <-]. simpl. rewrite Ed. by apply IHp.
           ++ destruct (Nat.ltb_spec (S j) (length (tchildren c))) as [Hj|]; [|done]. intros [= <-]. simpl.
              apply lookup_lt_is_Some_2 in Hj as [y ->]. done.
        -- destruct (Nat.ltb_spec (S j) (length (tchildren c))) as [Hj|]; [|done]. intros [= <-]. simpl.
           apply lookup_lt_is_Some_2 in Hj as [y ->]. done.
    + destruct m2; [|done]. simpl.
      destruct (Nat.ltb_spec (S i) (length cs)) as [Hj|Hj]; simpl.
      * destruct (lookup_lt_is_Some_2 cs (S i) Hj) as [d Hd]. rewrite Hd, (drop_S _ _ _ Hd). simpl.
        destruct (leftmost_head d (no_empty_list_lookup _ _ _ Hl Hd)) as [Hh [q Hq]]. rewrite Hq in Hh |- *. simpl.
        destruct (token_positions d) as [|y l]; [done|]. simpl in Hh. by injection Hh as ->.
      * by rewrite drop_ge by lia.
  - simpl. rewrite Ec. simpl. destruct (up_prev c p) as [q|] eqn:Eq.
    + simpl. rewrite Ec. simpl in Hm1. destruct (tsub c q) as [x|] eqn:Ex.
      * simpl in *. destruct (rightmost_last x (tsub_no_empty _ _ _ Hc Ex)) as [_ [q' Hq']]. rewrite Hq' in Hm1 |- *.
        simpl. apply last_app_some. by apply last_cons_map.
      * exfalso. clear -Eq Ex Hs. revert c q Eq Ex Hs. induction p as [|j p IHp]; intros c q; simpl; [done|].
        destruct (tchildren c !! j) as [d|] eqn:Ed; simpl; [|done].
        destruct (up_prev d p) as [q'|] eqn:Eq'.
        -- intros [= <-]. simpl. rewrite Ed. by apply IHp.
        -- destruct j as [|j]; [done|]. intros [= <-]. simpl. apply lookup_lt_Some in Ed.
           destruct (lookup_lt_is_Some_2 (tchildren c) j) as [y ->]; [lia|done].
    + destruct m1 as [|y m1 _] using rev_ind; [|by rewrite last_snoc in Hm1]. simpl. rewrite app_nil_r.
      destruct i as [|i]; [done|]. simpl.
      destruct (lookup_lt_is_Some_2 cs i) as [d Hd]; [lia|]. rewrite Hd. simpl.
      rewrite (take_S_r _ _ _ Hd), tpl_app. simpl. rewrite app_nil_r.
      destruct (rightmost_last d (no_empty_list_lookup _ _ _ Hl Hd)) as [Hh [q Hq]]. rewrite Hq in Hh |- *. simpl.
      apply last_app_some. rewrite take_length, Nat.min_l by lia. by apply last_cons_map.
Qed.

(** ** The functions *)
Section tok.
Context (root : green) (Hwf : wfg root).
Local Notation at_ p o := (o ≫= fun q => cursor_at root (p ++ q)).

Lemma first_token_f_at fuel p c :
  cursor_at root p = Some c -> gsize (c_green c) <= fuel ->
  first_token_f fuel c = Ok (at_ p (leftmost (erase (c_green c)))).
Proof using Hwf.
  revert p c. induction fuel as [|fuel IH]; intros p c Hc Hf; [pose proof (gsize_pos (c_green c)); lia|]. simpl.
  unfold c_is_node. destruct (c_green c) as [a k tl cs|a k s] eqn:Eg; simpl.
  2:{ by rewrite app_nil_r, Hc. }
  rewrite (first_child_or_token_at root Hwf p c Hc). simpl. destruct cs as [|ch cs]; simpl.
  - rewrite (cursor_at_child_None _ _ _ _ Hc); [done|]. by rewrite Eg.
  - assert (Hch : gchildren (c_green c) !! 0 = Some ch) by (by rewrite Eg).
    pose proof (cursor_at_child _ _ _ _ _ Hc Hch) as Hd. rewrite Hd. simpl.
    rewrite (IH _ _ Hd) by (pose proof (gsize_child _ _ _ Hch); rewrite Eg in *; simpl in *; lia).
    simpl. destruct (leftmost (erase ch.2)); simpl; [|done]. by rewrite <- app_assoc.
Qed.
Lemma first_token_at p c :
  cursor_at root p = Some c -> first_token c = Ok (at_ p (leftmost (erase (c_green c)))).
Proof using Hwf. intros H. by apply first_token_f_at. Qed.
Lemma last_token_f_at fuel p c :
  cursor_at root p = Some c -> gsize (c_green c) <= fuel ->
  last_token_f fuel c = Ok (at_ p (rightmost (erase (c_green c)))).
Proof using Hwf.
  revert p c. induction fuel as [|fuel IH]; intros p c Hc Hf; [pose proof (gsize_pos (c_green c)); lia|]. cbn [last_token_f].
  unfold c_is_node. destruct (c_green c) as [a k tl cs|a k s] eqn:Eg.
  2:{ simpl. by rewrite app_nil_r, Hc. }
  cbn [gis_node erase]. rewrite rightmost_node, rm_go_last, length_map.
  rewrite (last_child_or_token_at root Hwf p c Hc), Eg. cbn [gchildren].
  destruct cs as [|ch cs _] using rev_ind; [done|]. rewrite map_app, app_length, Nat.add_1_r. simpl. rewrite last_snoc.
  assert (Hch : gchildren (c_green c) !! length cs = Some ch) by (rewrite Eg; simpl; by rewrite lookup_app_r, Nat.sub_diag).
  pose proof (cursor_at_child _ _ _ _ _ Hc Hch) as Hd. rewrite Hd.
  rewrite (IH _ _ Hd) by (pose proof (gsize_child _ _ _ Hch); rewrite Eg in *; simpl in *; lia).
  simpl. rewrite Nat.sub_0_r. destruct (rightmost (erase ch.2)); simpl; [|done]. by rewrite <- app_assoc.
Qed.
Lemma last_token_at p c :
  cursor_at root p = Some c -> last_token c = Ok (at_ p (rightmost (erase (c_green c)))).
Proof using Hwf. intros H. by apply last_token_f_at. Qed.

Lemma up_next_snoc t p i x :
  tsub t p = Some x ->
  up_next t (p ++ [i]) = if S i <? length (tchildren x) then Some (p ++ [S i]) else up_next t p.
Proof using Type.
  revert t. induction p as [|j p IH]; intros t; simpl.
  - intros [= ->]. destruct (tchildren x !! i); done.
  - destruct (tchildren t !! j) as [c|] eqn:E; [|done]. simpl. intros H. rewrite (IH c H).
    by destruct (S i <? length (tchildren x)).
Qed.
Lemma up_prev_snoc t p i x :
  tsub t p = Some x ->
  up_prev t (p ++ [i]) = match i with 0 => up_prev t p | S j => Some (p ++ [j]) end.
Proof using Type.
  revert t. induction p as [|j p IH]; intros t; simpl.
  - intros [= ->]. destruct (tchildren x !! i); by destruct i.
  - destruct (tchildren t !! j) as [c|] eqn:E; [|done]. simpl. intros H. rewrite (IH c H).
    by destruct i.
Qed.
Lemma anc_next p c :
  cursor_at root p = Some c ->
  ancestors_find_map next_sibling_or_token c = Ok (up_next (erase root) p ≫= cursor_at root).
Proof using Hwf.
  revert c. induction p as [|i p IH] using rev_ind; intros c Hc; [by injection Hc as <-|].
  destruct (cursor_at_prefix _ _ _ _ Hc) as [c0 H0].
  pose proof (next_sibling_or_token_at' root Hwf p i c c0 Hc H0) as Hn.
  destruct (sib_shape root p i c c0 Hc H0) as [Hs _]. rewrite Hs in Hn |- *. cbn [ancestors_find_map].
  rewrite Hn. cbn [mbind res_bind]. rewrite (up_next_snoc _ _ _ _ (cursor_at_tsub _ _ _ H0)), length_erase_children.
  destruct (Nat.ltb_spec (S i) (length (gchildren (c_green c0)))) as [Hlt|Hge].
  - destruct (lookup_lt_is_Some_2 _ _ Hlt) as [ch Hch]. simpl.
    rewrite (cursor_at_child _ _ _ _ _ H0 Hch). done.
  - rewrite (cursor_at_child_None _ _ _ _ H0) by (by apply lookup_ge_None). by apply IH.
Qed.
Lemma anc_prev p c :
  cursor_at root p = Some c ->
  ancestors_find_map prev_sibling_or_token c = Ok (up_prev (erase root) p ≫= cursor_at root).
Proof using Hwf.
  revert c. induction p as [|i p IH] using rev_ind; intros c Hc; [by injection Hc as <-|].
  destruct (cursor_at_prefix _ _ _ _ Hc) as [c0 H0].
  pose proof (prev_sibling_or_token_at' root Hwf p i c c0 Hc H0) as Hn.
  destruct (sib_shape root p i c c0 Hc H0) as [Hs [ch Hch]]. rewrite Hs in Hn |- *. cbn [ancestors_find_map].
  rewrite Hn. cbn [mbind res_bind]. rewrite (up_prev_snoc _ _ _ _ (cursor_at_tsub _ _ _ H0)).
  destruct i as [|i]; [by apply IH|]. simpl. apply lookup_lt_Some in Hch.
  destruct (lookup_lt_is_Some_2 (gchildren (c_green c0)) i) as [d Hd]; [lia|].
  rewrite (cursor_at_child _ _ _ _ _ H0 Hd). done.
Qed.
(** [next_token], exactly *)
Lemma next_token_at p c :
  cursor_at root p = Some c ->
  next_token c = Ok (q ← up_next (erase root) p; x ← tsub (erase root) q; q' ← leftmost x; cursor_at root (q ++ q')).
Proof using Hwf.
  intros Hc. pose proof (anc_next p c Hc) as Ha.
  assert (Hn : next_token c = (o ← ancestors_find_map next_sibling_or_token c; match o with Some e => first_token e | None => Ok None end)).
  { unfold next_token. destruct c as [g|par i off g]; cbn [ancestors_find_map c_parent]; [by destruct (next_sibling_or_token _) as [[]|]|].
    destruct (next_sibling_or_token _) as [[]|]; done. }
  rewrite Hn, Ha. simpl. destruct (up_next (erase root) p) as [q|]; simpl; [|done].
  destruct (cursor_at root q) as [e|] eqn:Ee; simpl.
  - rewrite (first_token_at q e Ee), (cursor_at_tsub _ _ _ Ee). done.
  - apply cursor_at_None in Ee. by rewrite erase_gsub, Ee.
Qed.
Lemma prev_token_at p c :
  cursor_at root p = Some c ->
  prev_token c = Ok (q ← up_prev (erase root) p; x ← tsub (erase root) q; q' ← rightmost x; cursor_at root (q ++ q')).
Proof using Hwf.
  intros Hc. pose proof (anc_prev p c Hc) as Ha.
  assert (Hn : prev_token c = (o ← ancestors_find_map prev_sibling_or_token c; match o with Some e => last_token e | None => Ok None end)).
  { unfold prev_token. destruct c as [g|par i off g]; cbn [ancestors_find_map c_parent]; [by destruct (prev_sibling_or_token _) as [[]|]|].
    destruct (prev_sibling_or_token _) as [[]|]; done. }
  rewrite Hn, Ha. simpl. destruct (up_prev (erase root) p) as [q|]; simpl; [|done].
  destruct (cursor_at root q) as [e|] eqn:Ee; simpl.
  - rewrite (last_token_at q e Ee), (cursor_at_tsub _ _ _ Ee). done.
  - apply cursor_at_None in Ee. by rewrite erase_gsub, Ee.
Qed.
Lemma next_prev_token_no_empty n p c :
  no_empty_nodes (erase root) -> token_positions (erase root) !! n = Some p -> cursor_at root p = Some c ->
  next_token c = Ok (token_positions (erase root) !! S n ≫= cursor_at root) /\
  prev_token c = Ok (match n with 0 => None | S m => token_positions (erase root) !! m end ≫= cursor_at root).
Proof using Hwf.
  intros Hne Hn Hc. destruct (neighbours (erase root) p Hne) as (l1&l2&Hl&Hh&Hla).
  { by eapply elem_of_list_lookup_2. }
  assert (n = length l1) as ->.
  { eapply (NoDup_lookup (token_positions (erase root))); [apply NoDup_token_positions|exact Hn|].
    by rewrite Hl, lookup_app_r, Nat.sub_diag. }
  rewrite (next_token_at p c Hc), (prev_token_at p c Hc), Hl. split.
  - f_equal. rewrite lookup_app_r by lia. replace (S (length l1) - length l1) with 1 by lia. simpl.
    rewrite <- head_lookup, Hh.
    destruct (up_next _ _); simpl; [|done]. destruct (tsub _ _); simpl; [|done]. by destruct (leftmost _).
  - f_equal. assert (last l1 = match length l1 with 0 => None | S m => (l1 ++ p :: l2) !! m end) as <-.
    { destruct l1 as [|y l1 _] using rev_ind; [done|]. rewrite last_snoc, app_length, Nat.add_1_r.
      rewrite <- app_assoc. by rewrite lookup_app_r, Nat.sub_diag. }
    rewrite Hla. destruct (up_prev _ _); simpl; [|done]. destruct (tsub _ _); simpl; [|done]. by destruct (rightmost _).
Qed.
End tok.
