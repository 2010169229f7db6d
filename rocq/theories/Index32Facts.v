(** * Facts about 32-bit child indices *)
From Verif Require Export Index32 Walk.

Lemma idx32_small i : i < w32 -> idx32 i = i.
Proof. intros H. unfold idx32. by apply Nat.mod_small. Qed.
Lemma idx32_w32 : idx32 w32 = 0.
Proof. unfold idx32. apply Nat.mod_same. pose proof w32_pos. lia. Qed.

(** ** With the identity the functions are those of Cursor.v *)
(** proof device: all functions of Index32.v and their originals *)
Definition as_cursor : Prop :=
  let ix := fun i : nat => i in
  first_child_i ix = first_child /\ first_child_by_kind_i ix = first_child_by_kind /\
  last_child_i ix = last_child /\ first_child_or_token_i ix = first_child_or_token /\
  first_child_or_token_by_kind_i ix = first_child_or_token_by_kind /\
  last_child_or_token_i ix = last_child_or_token /\
  next_sibling_i ix = next_sibling /\ next_sibling_by_kind_i ix = next_sibling_by_kind /\
  prev_sibling_i ix = prev_sibling /\ next_sibling_or_token_i ix = next_sibling_or_token /\
  next_sibling_or_token_by_kind_i ix = next_sibling_or_token_by_kind /\
  prev_sibling_or_token_i ix = prev_sibling_or_token /\
  node_children_next_i ix = node_children_next /\ element_children_next_i ix = element_children_next /\
  node_by_kind_i ix = node_by_kind /\ element_by_kind_i ix = element_by_kind /\
  node_by_kind_next_i ix = node_by_kind_next /\ element_by_kind_next_i ix = element_by_kind_next /\
  siblings_next_i ix = siblings_next /\ siblings_with_tokens_next_i ix = siblings_with_tokens_next /\
  preorder_next_i ix = preorder_next /\ preorder_wt_next_i ix = preorder_wt_next /\
  descendants_i ix = descendants /\ descendants_with_tokens_i ix = descendants_with_tokens /\
  first_token_i ix = first_token /\ last_token_i ix = last_token /\
  next_token_i ix = next_token /\ prev_token_i ix = prev_token /\
  children_i ix = children /\ children_with_tokens_i ix = children_with_tokens /\
  token_at_offset_i ix = token_at_offset /\ child_or_token_at_range_i ix = child_or_token_at_range /\
  covering_element_i ix = covering_element.
Lemma as_cursor_holds : as_cursor.
Proof. unfold as_cursor. repeat split; reflexivity. Qed.

(** ** Trees with at most 2^32 children per node *)
(** specification: no node of the tree has more than 2^32 children *)
Definition narrow (g : green) : Prop :=
  forall p g', gsub g p = Some g' -> length (gchildren g') <= w32.
Lemma narrow_len g : narrow g -> length (gchildren g) <= w32.
Proof. intros H. exact (H [] g eq_refl). Qed.
Lemma narrow_child g i ch : narrow g -> gchildren g !! i = Some ch -> narrow ch.2.
Proof. intros H Hi p g' Hp. apply (H (i :: p)). simpl. by rewrite Hi. Qed.
(** proof device: the element and its ancestors have narrow green trees *)
Fixpoint good (c : cursor) : Prop :=
  narrow (c_green c) /\ match c with CRoot _ => True | CChild p _ _ _ => good p end.
Lemma good_narrow c : good c -> narrow (c_green c).
Proof. destruct c; intros [H _]; exact H. Qed.
Lemma good_parent c p : good c -> c_parent c = Some p -> good p.
Proof. destruct c as [|q i o g]; intros [_ H] Hp; simpl in Hp; [discriminate|]. by injection Hp as <-. Qed.
Lemma cursor_at_good root p c : narrow root -> cursor_at root p = Some c -> good c.
Proof.
  intros Hn. revert c. induction p as [|i p IH] using rev_ind; intros c.
  - rewrite cursor_at_nil. intros [= <-]. done.
  - rewrite cursor_at_snoc. destruct (cursor_at root p) as [c0|]; simpl; [|discriminate].
    specialize (IH _ eq_refl). unfold child_at. destruct (_ !! i) as [ch|] eqn:E; [|discriminate].
    intros [= <-]. split; [|exact IH]. simpl. eapply narrow_child; [by apply good_narrow|exact E].
Qed.

(** proof device: the same answer, and what is found is good *)
Definition ans (r1 r2 : res (option cursor)) : Prop :=
  r1 = r2 /\ forall c, r2 = Ok (Some c) -> good c.
(** proof device: a selection is one of the children *)
Lemma mk_child_ans c i ch :
  good c -> gchildren (c_green c) !! i = Some ch ->
  mk_child_i idx32 c (i, ch) = mk_child c (i, ch) /\ forall d, mk_child c (i, ch) = Ok d -> good d.
Proof.
  intros Hg Hi. unfold mk_child_i, mk_child. cbn [fst snd].
  rewrite idx32_small.
  2: { pose proof (narrow_len _ (good_narrow _ Hg)). apply lookup_lt_Some in Hi. lia. }
  split; [reflexivity|]. intros d. destruct (add32 _ _ _) as [o|e]; simpl; [|discriminate].
  intros [= <-]. split; [|exact Hg]. simpl. eapply narrow_child; [by apply good_narrow|exact Hi].
Qed.
Lemma mk_child_opt_ans c o :
  good c -> valid_sel (gchildren (c_green c)) o -> ans (mk_child_opt_i idx32 c o) (mk_child_opt c o).
Proof.
  intros Hg Hv. destruct o as [[i ch]|]; [|split; [reflexivity|discriminate]].
  destruct (mk_child_ans c i ch Hg (Hv _ _ eq_refl)) as [E Hd].
  unfold ans, mk_child_opt_i, mk_child_opt. rewrite E. split; [reflexivity|].
  intros d. destruct (mk_child c (i, ch)) as [e|e]; simpl; [|discriminate]. intros [= <-]. by apply Hd.
Qed.
Lemma mk_sibling_opt_ans c o :
  good c -> valid_sel (green_siblings c) o -> ans (mk_sibling_opt_i idx32 c o) (mk_sibling_opt c o).
Proof.
  intros Hg Hv. destruct o as [[i ch]|]; [|split; [reflexivity|discriminate]].
  unfold mk_sibling_opt_i, mk_sibling_opt. unfold green_siblings in Hv.
  destruct (c_parent c) as [p|] eqn:Ep; [|split; [reflexivity|discriminate]].
  pose proof (mk_child_opt_ans p (Some (i, ch)) (good_parent _ _ Hg Ep) Hv) as H. exact H.
Qed.

Lemma enum_valid l (k : nat) : valid_sel l (enumerate l !! k).
Proof. intros i ch. rewrite lookup_enumerate. destruct (l !! k) eqn:E; simpl; [|discriminate]. by intros [= <- <-]. Qed.
(** proof device: the selection functions return their argument *)
Definition picks (f : nat * (N * green) -> option (nat * (N * green))) : Prop :=
  forall x y, f x = Some y -> y = x.
Lemma find_valid f l l' : picks f -> (forall x, x ∈ l' -> x ∈ enumerate l) -> valid_sel l (find_map f l').
Proof.
  intros Hf Hl i ch H. apply find_map_Some in H as (k & x & Hx & Hfx & _).
  apply Hf in Hfx as <-. apply elem_of_list_lookup_2, Hl, elem_of_list_lookup in Hx as [j Hj].
  rewrite lookup_enumerate in Hj. destruct (l !! j) eqn:E; simpl in Hj; [|discriminate].
  by injection Hj as <- <-.
Qed.
Lemma picks_node : picks sel_node.
Proof. intros x y. unfold sel_node. destruct (gis_node _); congruence. Qed.
Lemma picks_kind m : picks (sel_kind m).
Proof. intros x y. unfold sel_kind. destruct (m _); congruence. Qed.
Lemma picks_node_kind m : picks (sel_node_kind m).
Proof. intros x y. unfold sel_node_kind. destruct (m _); [apply picks_node|discriminate]. Qed.
Lemma elem_drop {A} (n : nat) (l : list A) x : x ∈ drop n l -> x ∈ l.
Proof. intros H. rewrite <-(take_drop n l). apply elem_of_app. by right. Qed.
Lemma elem_rev {A} (l : list A) x : x ∈ rev l -> x ∈ l.
Proof. rewrite !elem_of_list_In. apply in_rev. Qed.

Ltac sel_tac := apply find_valid; [first [apply picks_node | apply picks_kind | apply picks_node_kind]|];
  intros ? Hin; repeat (first [apply elem_drop in Hin | apply elem_rev in Hin]); exact Hin.

Section nav.
Context (c : cursor) (Hg : good c).
Lemma first_child_ans : ans (first_child_i idx32 c) (first_child c).
Proof using Hg. apply mk_child_opt_ans; [exact Hg|sel_tac]. Qed.
Lemma first_child_by_kind_ans m : ans (first_child_by_kind_i idx32 m c) (first_child_by_kind m c).
Proof using Hg. apply mk_child_opt_ans; [exact Hg|sel_tac]. Qed.
Lemma last_child_ans : ans (last_child_i idx32 c) (last_child c).
Proof using Hg. apply mk_child_opt_ans; [exact Hg|sel_tac]. Qed.
Lemma first_child_or_token_ans : ans (first_child_or_token_i idx32 c) (first_child_or_token c).
Proof using Hg.
  apply mk_child_opt_ans; [exact Hg|]. intros i ch. destruct (gchildren _); simpl; [discriminate|].
  by intros [= <- <-].
Qed.
Lemma first_child_or_token_by_kind_ans m :
  ans (first_child_or_token_by_kind_i idx32 m c) (first_child_or_token_by_kind m c).
Proof using Hg. apply mk_child_opt_ans; [exact Hg|sel_tac]. Qed.
Lemma last_child_or_token_ans : ans (last_child_or_token_i idx32 c) (last_child_or_token c).
Proof using Hg. apply mk_child_opt_ans; [exact Hg|]. rewrite last_lookup. apply enum_valid. Qed.
Lemma next_sibling_ans : ans (next_sibling_i idx32 c) (next_sibling c).
Proof using Hg. apply mk_sibling_opt_ans; [exact Hg|sel_tac]. Qed.
Lemma next_sibling_by_kind_ans m : ans (next_sibling_by_kind_i idx32 m c) (next_sibling_by_kind m c).
Proof using Hg. apply mk_sibling_opt_ans; [exact Hg|sel_tac]. Qed.
Lemma prev_sibling_ans : ans (prev_sibling_i idx32 c) (prev_sibling c).
Proof using Hg.
  unfold prev_sibling_i, prev_sibling. cbv zeta. destruct (_ <? _); [split; [reflexivity|discriminate]|].
  apply mk_sibling_opt_ans; [exact Hg|sel_tac].
Qed.
Lemma next_sibling_or_token_ans : ans (next_sibling_or_token_i idx32 c) (next_sibling_or_token c).
Proof using Hg. apply mk_sibling_opt_ans; [exact Hg|apply enum_valid]. Qed.
Lemma next_sibling_or_token_by_kind_ans m :
  ans (next_sibling_or_token_by_kind_i idx32 m c) (next_sibling_or_token_by_kind m c).
Proof using Hg. apply mk_sibling_opt_ans; [exact Hg|sel_tac]. Qed.
Lemma prev_sibling_or_token_ans : ans (prev_sibling_or_token_i idx32 c) (prev_sibling_or_token c).
Proof using Hg.
  unfold prev_sibling_or_token_i, prev_sibling_or_token. destruct (c_index c); [split; [reflexivity|discriminate]|].
  apply mk_sibling_opt_ans; [exact Hg|apply enum_valid].
Qed.
End nav.

(** ** Iterators *)
(** proof device: the optional element is good *)
Definition ogood (o : option cursor) : Prop := forall c, o = Some c -> good c.
Lemma ogood_None : ogood None.
Proof. discriminate. Qed.
Lemma ogood_Some c : good c -> ogood (Some c).
Proof. intros H d [= <-]. exact H. Qed.
Lemma ogood_parent c : good c -> ogood (c_parent c).
Proof. intros H d Hd. by eapply good_parent. Qed.
(** proof device: one step of an iterator from a good state *)
Definition istep {S A} (inv : S -> Prop) (item : A -> Prop) (n1 n2 : iter S A) : Prop :=
  forall s, inv s -> n1 s = n2 s /\ forall o s', n2 s = Ok (o, s') -> inv s' /\ forall a, o = Some a -> item a.
Lemma collect_same {S A} inv item (n1 n2 : iter S A) :
  istep inv item n1 n2 -> forall fuel s, inv s ->
  collect n1 fuel s = collect n2 fuel s /\ forall l, collect n2 fuel s = Ok l -> Forall item l.
Proof.
  intros H fuel. induction fuel as [|fuel IH]; intros s Hs; simpl; [split; [reflexivity|discriminate]|].
  destruct (H s Hs) as [E Hn]. rewrite E. destruct (n2 s) as [[o s']|e]; simpl; [|split; [reflexivity|discriminate]].
  destruct (Hn _ _ eq_refl) as [Hs' Ho]. destruct o as [a|].
  - destruct (IH s' Hs') as [E' Hl]. rewrite E'. split; [reflexivity|]. intros l.
    destruct (collect n2 fuel s') as [l'|e]; simpl; [|discriminate]. intros [= <-].
    constructor; [by apply Ho|by apply Hl].
  - split; [reflexivity|]. intros l [= <-]. constructor.
Qed.

(** proof device: the state of a children iterator is good *)
Definition ci_good (it : children_iter) : Prop := good (ci_parent it) /\ ogood (ci_next it).
Lemma ci_new_good c : good c -> ci_good (children_new c).
Proof. intros H. split; [exact H|apply ogood_None]. Qed.
Lemma ans_none : ans (Ok None) (Ok None).
Proof. split; [reflexivity|discriminate]. Qed.
Lemma ans_some c : good c -> ans (Ok (Some c)) (Ok (Some c)).
Proof. intros H. split; [reflexivity|]. by intros d [= <-]. Qed.
Lemma ci_ans (r1 r2 : res (option cursor)) it :
  ans r1 r2 -> ci_good it ->
  (nx ← r1; Ok (nx, CI (ci_parent it) nx true)) = (nx ← r2; Ok (nx, CI (ci_parent it) nx true)) /\
  forall o s', (nx ← r2; Ok (nx, CI (ci_parent it) nx true)) = Ok (o, s') -> ci_good s' /\ forall a, o = Some a -> good a.
Proof.
  intros [-> H] [Hp _]. split; [reflexivity|]. intros o s'. destruct r2 as [nx|e]; simpl; [|discriminate].
  intros [= <- <-]. assert (ogood nx) by (intros a ->; by apply H).
  split; [split; assumption|assumption].
Qed.
Lemma node_children_next_same : istep ci_good good (node_children_next_i idx32) node_children_next.
Proof.
  intros it [Hp Hn]. apply ci_ans; [|split; assumption]. destruct (negb _).
  - by apply first_child_ans.
  - destruct (ci_next it); [|apply ans_none]. apply next_sibling_ans. by apply Hn.
Qed.
Lemma element_children_next_same : istep ci_good good (element_children_next_i idx32) element_children_next.
Proof.
  intros it [Hp Hn]. apply ci_ans; [|split; assumption]. destruct (negb _).
  - by apply first_child_or_token_ans.
  - destruct (ci_next it); [|apply ans_none]. apply next_sibling_or_token_ans. by apply Hn.
Qed.
Lemma node_by_kind_ans m it : ci_good it -> ans (node_by_kind_i idx32 m it) (node_by_kind m it).
Proof.
  intros [Hp Hn]. unfold node_by_kind_i, node_by_kind. destruct (negb _).
  - by apply first_child_by_kind_ans.
  - destruct (ci_next it); [|apply ans_none]. destruct (m _).
    + apply ans_some. by apply Hn.
    + apply next_sibling_by_kind_ans. by apply Hn.
Qed.
Lemma element_by_kind_ans m it : ci_good it -> ans (element_by_kind_i idx32 m it) (element_by_kind m it).
Proof.
  intros [Hp Hn]. unfold element_by_kind_i, element_by_kind. destruct (negb _).
  - by apply first_child_or_token_by_kind_ans.
  - destruct (ci_next it); [|apply ans_none]. destruct (m _).
    + apply ans_some. by apply Hn.
    + apply next_sibling_or_token_by_kind_ans. by apply Hn.
Qed.
Lemma successors_same (f1 f2 : cursor -> res (option cursor)) :
  (forall c, good c -> ans (f1 c) (f2 c)) -> istep ogood good (successors_next f1) (successors_next f2).
Proof.
  intros H [c|] Hc; simpl.
  - destruct (H c (Hc _ eq_refl)) as [E Hd]. rewrite E. split; [reflexivity|]. intros o s'.
    destruct (f2 c) as [nx|e]; simpl; [|discriminate]. intros [= <- <-]. split.
    + intros d ->. by apply Hd.
    + exact Hc.
  - split; [reflexivity|]. intros o s' [= <- <-]. split; [apply ogood_None|discriminate].
Qed.

(** proof device: the element of an event is good *)
Definition egood (e : wevent cursor) : Prop := match e with Enter c | Leave c => good c end.
(** proof device: the optional event is good *)
Definition oegood (o : option (wevent cursor)) : Prop := forall e, o = Some e -> egood e.
(** proof device: the state of a walk is good *)
Definition po_good (po : preorder) : Prop := good (po_start po) /\ oegood (po_next po).
Lemma po_new_good c : good c -> po_good (preorder_new c).
Proof. intros H. split; [exact H|]. intros e [= <-]. exact H. Qed.
(** proof device: the same next event *)
Definition eans (r1 r2 : res (option (wevent cursor))) : Prop :=
  r1 = r2 /\ forall o, r2 = Ok o -> oegood o.
Lemma leave_parent_good c : good c -> oegood (Leave <$> c_parent c).
Proof.
  intros H e. destruct (c_parent c) as [p|] eqn:E; simpl; [|discriminate]. intros [= <-]. simpl.
  by eapply good_parent.
Qed.
Lemma preorder_succ_same start e : egood e -> eans (preorder_succ_i idx32 start e) (preorder_succ start e).
Proof.
  destruct e as [c|c]; simpl; intros H.
  - destruct (first_child_ans c H) as [-> Hd]. split; [reflexivity|]. intros o.
    destruct (first_child c) as [[d|]|]; simpl; intros [= <-]; intros e [= <-]; simpl; [by apply Hd|exact H].
  - destruct (c_eqb c start); [split; [reflexivity|]; intros o [= <-]; discriminate|].
    destruct (next_sibling_ans c H) as [-> Hd]. split; [reflexivity|]. intros o.
    destruct (next_sibling c) as [[d|]|]; simpl; intros [= <-].
    + intros e [= <-]. simpl. by apply Hd.
    + by apply leave_parent_good.
Qed.
Lemma preorder_wt_succ_same start e : egood e -> eans (preorder_wt_succ_i idx32 start e) (preorder_wt_succ start e).
Proof.
  destruct e as [c|c]; simpl; intros H.
  - destruct (c_is_node c).
    + destruct (first_child_or_token_ans c H) as [-> Hd]. split; [reflexivity|]. intros o.
      destruct (first_child_or_token c) as [[d|]|]; simpl; intros [= <-]; intros e [= <-]; simpl; [by apply Hd|exact H].
    + split; [reflexivity|]. intros o [= <-] e [= <-]. exact H.
  - destruct (c_eqb c start); [split; [reflexivity|]; intros o [= <-]; discriminate|].
    destruct (next_sibling_or_token_ans c H) as [-> Hd]. split; [reflexivity|]. intros o.
    destruct (next_sibling_or_token c) as [[d|]|]; simpl; intros [= <-].
    + intros e [= <-]. simpl. by apply Hd.
    + by apply leave_parent_good.
Qed.
Lemma do_skip_good o o' : oegood o -> do_skip o = Ok o' -> oegood o'.
Proof.
  intros H. destruct o as [[c|c]|]; simpl.
  - destruct (c_parent c) as [p|] eqn:E; simpl; [|discriminate]. intros [= <-] e [= <-]. simpl.
    eapply good_parent; [|exact E]. exact (H _ eq_refl).
  - intros [= <-]. exact H.
  - intros [= <-]. exact H.
Qed.
Lemma preorder_next_gen_same f1 f2 :
  (forall s e, egood e -> eans (f1 s e) (f2 s e)) -> istep po_good egood (preorder_next_gen f1) (preorder_next_gen f2).
Proof.
  intros H po [Hs Hn]. unfold preorder_next_gen.
  assert (Ho : forall o, (if po_skip po then do_skip (po_next po) else Ok (po_next po)) = Ok o -> oegood o).
  { destruct (po_skip po); [intros o; by apply do_skip_good|intros o [= <-]; exact Hn]. }
  destruct (if po_skip po then _ else _) as [[e|]|er]; simpl; [| |split; [reflexivity|discriminate]].
  - specialize (Ho _ eq_refl e eq_refl). destruct (H (po_start po) e Ho) as [-> Hd]. split; [reflexivity|].
    intros o s'. destruct (f2 (po_start po) e) as [nx|er]; simpl; [|discriminate]. intros [= <- <-].
    split; [split; [exact Hs|by apply Hd]|]. by intros a [= <-].
  - split; [reflexivity|]. intros o s' [= <- <-]. split; [split; [exact Hs|discriminate]|discriminate].
Qed.
Lemma preorder_next_same : istep po_good egood (preorder_next_i idx32) preorder_next.
Proof. apply preorder_next_gen_same. intros. by apply preorder_succ_same. Qed.
Lemma preorder_wt_next_same : istep po_good egood (preorder_wt_next_i idx32) preorder_wt_next.
Proof. apply preorder_next_gen_same. intros. by apply preorder_wt_succ_same. Qed.
Lemma skip_subtree_good po : po_good po -> po_good (skip_subtree po).
Proof. intros [H1 H2]. split; assumption. Qed.

Lemma children_same c : good c ->
  children_i idx32 c = children c /\ forall l, children c = Ok l -> Forall good l.
Proof. intros H. by apply (collect_same _ _ _ _ node_children_next_same), ci_new_good. Qed.
Lemma children_with_tokens_same c : good c ->
  children_with_tokens_i idx32 c = children_with_tokens c /\
  forall l, children_with_tokens c = Ok l -> Forall good l.
Proof. intros H. by apply (collect_same _ _ _ _ element_children_next_same), ci_new_good. Qed.
Lemma descendants_same c : good c -> descendants_i idx32 c = descendants c.
Proof.
  intros H. unfold descendants_i, descendants.
  by rewrite (proj1 (collect_same _ _ _ _ preorder_next_same _ _ (po_new_good _ H))).
Qed.
Lemma descendants_with_tokens_same c : good c -> descendants_with_tokens_i idx32 c = descendants_with_tokens c.
Proof.
  intros H. unfold descendants_with_tokens_i, descendants_with_tokens.
  by rewrite (proj1 (collect_same _ _ _ _ preorder_wt_next_same _ _ (po_new_good _ H))).
Qed.

(** ** Tokens *)
Lemma first_token_f_ans fuel c : good c -> ans (first_token_f_i idx32 fuel c) (first_token_f fuel c).
Proof.
  revert c. induction fuel as [|fuel IH]; intros c H; simpl; [split; [reflexivity|discriminate]|].
  destruct (c_is_node c); [|by apply ans_some].
  destruct (first_child_or_token_ans c H) as [-> Hd].
  destruct (first_child_or_token c) as [[d|]|]; simpl; [|apply ans_none|split; [reflexivity|discriminate]].
  apply IH. by apply Hd.
Qed.
Lemma last_token_f_ans fuel c : good c -> ans (last_token_f_i idx32 fuel c) (last_token_f fuel c).
Proof.
  revert c. induction fuel as [|fuel IH]; intros c H; simpl; [split; [reflexivity|discriminate]|].
  destruct (c_is_node c); [|by apply ans_some].
  destruct (last_child_or_token_ans c H) as [-> Hd].
  destruct (last_child_or_token c) as [[d|]|]; simpl; [|apply ans_none|split; [reflexivity|discriminate]].
  apply IH. by apply Hd.
Qed.
Lemma ancestors_find_map_ans f1 f2 c :
  (forall d, good d -> ans (f1 d) (f2 d)) -> good c -> ans (ancestors_find_map f1 c) (ancestors_find_map f2 c).
Proof.
  intros H. induction c as [g|p IH i o g]; intros Hc; simpl; [by apply H|].
  destruct (H _ Hc) as [-> Hd]. destruct (f2 _) as [[d|]|]; simpl.
  - apply ans_some. by apply Hd.
  - apply IH. exact (proj2 Hc).
  - split; [reflexivity|discriminate].
Qed.
Lemma next_token_same c : good c -> next_token_i idx32 c = next_token c.
Proof.
  intros H. unfold next_token_i, next_token. destruct (next_sibling_or_token_ans c H) as [-> Hd].
  destruct (next_sibling_or_token c) as [[d|]|]; simpl; [|clear Hd|reflexivity].
  - apply first_token_f_ans. by apply Hd.
  - destruct (c_parent c) as [p|] eqn:Ep; [|reflexivity].
    destruct (ancestors_find_map_ans _ _ p next_sibling_or_token_ans (good_parent _ _ H Ep)) as [-> Hd].
    destruct (ancestors_find_map _ p) as [[d|]|]; simpl; try reflexivity.
    apply first_token_f_ans. by apply Hd.
Qed.
Lemma prev_token_same c : good c -> prev_token_i idx32 c = prev_token c.
Proof.
  intros H. unfold prev_token_i, prev_token. destruct (prev_sibling_or_token_ans c H) as [-> Hd].
  destruct (prev_sibling_or_token c) as [[d|]|]; simpl; [|clear Hd|reflexivity].
  - apply last_token_f_ans. by apply Hd.
  - destruct (c_parent c) as [p|] eqn:Ep; [|reflexivity].
    destruct (ancestors_find_map_ans _ _ p prev_sibling_or_token_ans (good_parent _ _ H Ep)) as [-> Hd].
    destruct (ancestors_find_map _ p) as [[d|]|]; simpl; try reflexivity.
    apply last_token_f_ans. by apply Hd.
Qed.

(** ** Search *)
Lemma filter_res_sub {A} (f : A -> res bool) (P : A -> Prop) l l' :
  Forall P l -> filter_res f l = Ok l' -> Forall P l'.
Proof.
  intros H. revert l'. induction H as [|x l Hx Hl IH]; intros l'; simpl; [by intros [= <-]|].
  destruct (f x) as [b|]; simpl; [|discriminate]. destruct (filter_res f l) as [r|]; simpl; [|discriminate].
  intros [= <-]. specialize (IH _ eq_refl). destruct b; [by constructor|exact IH].
Qed.
Lemma token_at_offset_f_same fuel c offset :
  good c -> token_at_offset_f_i idx32 fuel c offset = token_at_offset_f fuel c offset.
Proof.
  revert c. induction fuel as [|fuel IH]; intros c H; simpl; [reflexivity|].
  destruct (c_text_range c) as [range|]; simpl; [|reflexivity].
  destruct (rassert _) as [u|]; simpl; [|reflexivity]. destruct (negb _); [reflexivity|].
  destruct (range_is_empty _); [reflexivity|].
  destruct (children_with_tokens_same c H) as [-> Hl].
  destruct (children_with_tokens c) as [cs|]; simpl; [|reflexivity]. specialize (Hl _ eq_refl).
  destruct (filter_res _ cs) as [l|] eqn:El; simpl; [|reflexivity].
  pose proof (filter_res_sub _ _ _ _ Hl El) as Hg.
  destruct l as [|a [|b [|]]]; try reflexivity.
  - apply IH. by inversion Hg.
  - inversion Hg as [|? ? Ha Hb]; subst. inversion Hb; subst. rewrite !IH by assumption. reflexivity.
Qed.
Lemma child_at_range_valid g rel i o x :
  child_at_range g rel = Some (i, o, x) -> gchildren g !! i = Some (o, x).
Proof.
  unfold child_at_range. cbv zeta. intros H.
  set (idx := match binary_search_by _ _ with inl it => it | inr it => it - 1 end) in H.
  destruct (gchildren g !! idx) as [[o' x']|] eqn:E; [|discriminate]. simpl in H.
  destruct (contains_range _ _); [|discriminate]. by injection H as <- <- <-.
Qed.
Lemma child_or_token_at_range_ans c r :
  good c -> ans (child_or_token_at_range_i idx32 c r) (child_or_token_at_range c r).
Proof.
  intros H. unfold child_or_token_at_range_i, child_or_token_at_range.
  destruct (range_sub r (c_offset c)) as [rel|]; simpl; [|split; [reflexivity|discriminate]].
  destruct (child_at_range _ rel) as [[[i o] x]|] eqn:E; [|apply ans_none].
  apply (mk_child_opt_ans c (Some (i, (o, x))) H). intros j ch [= <- <-]. by apply child_at_range_valid in E.
Qed.
Lemma covering_element_f_same fuel c r :
  good c -> covering_element_f_i idx32 fuel c r = covering_element_f fuel c r.
Proof.
  revert c. induction fuel as [|fuel IH]; intros c H; simpl; [reflexivity|].
  destruct (c_text_range c) as [range|]; simpl; [|reflexivity].
  destruct (rassert _); simpl; [|reflexivity]. destruct (negb _); [reflexivity|].
  destruct (child_or_token_at_range_ans c r H) as [-> Hd].
  destruct (child_or_token_at_range c r) as [[d|]|]; simpl; try reflexivity. apply IH. by apply Hd.
Qed.

(** ** Nodes with more than 2^32 children *)
(** specification: the element that navigation creates for an element of the
    tree: everything as it should be, but the index is taken modulo 2^32 *)
Definition as_shown (c : cursor) : cursor :=
  match c with CRoot g => CRoot g | CChild p i o g => CChild p (idx32 i) o g end.
(** specification: the position that [children_with_tokens()] gives at call [k]
    on a node with more than 2^32 children: 0, 1, ..., 2^32, 1, 2, ..., 2^32, 1, ... *)
Definition wide_at (k : nat) : nat := match k with 0 => 0 | S m => S (m mod w32) end.
Lemma wide_at_le k : wide_at k <= w32.
Proof. destruct k as [|m]; simpl; [lia|]. pose proof w32_pos. pose proof (Nat.mod_upper_bound m w32). lia. Qed.
Lemma wide_at_S k : wide_at (S k) = idx32 (wide_at k) + 1.
Proof.
  pose proof w32_pos as H. unfold idx32. destruct k as [|m]; cbn [wide_at].
  - rewrite Nat.mod_small by lia. reflexivity.
  - rewrite Nat.add_1_r. f_equal. rewrite <-(Nat.add_1_r (m mod w32)), <-(Nat.add_1_r m).
    rewrite Nat.add_mod_idemp_l by lia. reflexivity.
Qed.

Section wide.
Context (root : green) (Hwf : wfg root).
Lemma mk_child_shown p c i ch :
  cursor_at root p = Some c -> gchildren (c_green c) !! i = Some ch ->
  Ok (Some <$> mk_child_i idx32 c (i, ch)) = Ok (Some <$> (Ok (as_shown (CChild c i (c_offset c + ch.1) ch.2)) : res cursor)).
Proof using Hwf.
  intros H Hi. pose proof (mk_child_at root Hwf _ _ _ _ H Hi) as E. unfold mk_child in E. unfold mk_child_i.
  cbn [fst snd] in *. destruct (add32 _ _ _) as [o|]; simpl in *; [|discriminate]. by injection E as ->.
Qed.
Lemma first_shown p c : cursor_at root p = Some c -> first_child_or_token_i idx32 c = Ok (as_shown <$> cursor_at root (p ++ [0])).
Proof using Hwf.
  intros H. unfold first_child_or_token_i, mk_child_opt_i. rewrite cursor_at_snoc, H. simpl. unfold child_at.
  destruct (gchildren (c_green c)) as [|ch l] eqn:E; simpl; [reflexivity|].
  assert (Hi : gchildren (c_green c) !! 0 = Some ch) by (rewrite E; reflexivity).
  by injection (mk_child_shown _ _ _ _ H Hi) as ->.
Qed.
Lemma next_shown p c d i o g : cursor_at root p = Some c -> d = CChild c i o g ->
  next_sibling_or_token_i idx32 d = Ok (as_shown <$> cursor_at root (p ++ [i + 1])).
Proof using Hwf.
  intros H ->. unfold next_sibling_or_token_i, mk_sibling_opt_i, green_siblings. cbn [c_parent c_index].
  rewrite lookup_enumerate, cursor_at_snoc, H. cbn [mbind option_bind]. unfold child_at.
  destruct (gchildren (c_green c) !! (i + 1)) as [ch|] eqn:E; simpl; [|reflexivity].
  by injection (mk_child_shown _ _ _ _ H E) as ->.
Qed.
Lemma last_shown p c : cursor_at root p = Some c ->
  last_child_or_token_i idx32 c = Ok (as_shown <$> cursor_at root (p ++ [pred (length (gchildren (c_green c)))])).
Proof using Hwf.
  intros H. unfold last_child_or_token_i, mk_child_opt_i. rewrite last_lookup, length_enumerate, lookup_enumerate.
  rewrite cursor_at_snoc, H. cbn [mbind option_bind]. unfold child_at.
  destruct (gchildren (c_green c) !! _) as [ch|] eqn:E; simpl; [|reflexivity].
  by injection (mk_child_shown _ _ _ _ H E) as ->.
Qed.
Lemma prev_shown p c d i o g : cursor_at root p = Some c -> d = CChild c i o g ->
  prev_sibling_or_token_i idx32 d = match i with 0 => Ok None | S j => Ok (as_shown <$> cursor_at root (p ++ [j])) end.
Proof using Hwf.
  intros H ->. unfold prev_sibling_or_token_i, mk_sibling_opt_i, green_siblings. cbn [c_parent c_index].
  destruct i as [|j]; [reflexivity|].
  rewrite lookup_enumerate, cursor_at_snoc, H. cbn [mbind option_bind]. unfold child_at.
  destruct (gchildren (c_green c) !! j) as [ch|] eqn:E; simpl; [|reflexivity].
  by injection (mk_child_shown _ _ _ _ H E) as ->.
Qed.

Context (p : pos) (c : cursor) (Hc : cursor_at root p = Some c) (Hw : w32 < length (gchildren (c_green c))).
(** proof device: the element at call [k] *)
Lemma wide_elem k : exists o g, as_shown <$> cursor_at root (p ++ [wide_at k]) = Some (CChild c (idx32 (wide_at k)) o g).
Proof using Hc Hw.
  rewrite cursor_at_snoc, Hc. cbn [mbind option_bind]. unfold child_at.
  destruct (lookup_lt_is_Some_2 (gchildren (c_green c)) (wide_at k)) as [ch Hch].
  { pose proof (wide_at_le k). lia. }
  rewrite Hch. simpl. eauto.
Qed.
Lemma wide_steps n : exists l : list cursor,
  length l = S n /\ (forall k : nat, k <= n -> l !! k = as_shown <$> cursor_at root (p ++ [wide_at k])) /\
  steps (element_children_next_i idx32) (children_new c) l (CI c (as_shown <$> cursor_at root (p ++ [wide_at n])) true).
Proof using Hwf Hc Hw.
  induction n as [|n (l & Hl & Hk & Hs)].
  - destruct (wide_elem 0) as (o & g & E). exists [CChild c (idx32 (wide_at 0)) o g]. split; [reflexivity|]. split.
    + intros k Hk. replace k with 0 by lia. by rewrite E.
    + eapply steps_cons; [|apply steps_nil]. unfold element_children_next_i. cbn [children_new ci_init ci_parent negb].
      rewrite (first_shown _ _ Hc). cbn [wide_at] in E |- *. by rewrite E.
  - destruct (wide_elem (S n)) as (o & g & E). destruct (wide_elem n) as (o' & g' & E').
    exists (l ++ [CChild c (idx32 (wide_at (S n))) o g]). split; [rewrite app_length; simpl; lia|]. split.
    + intros k Hk'. destruct (decide (k = S n)) as [->|Hne].
      * rewrite lookup_app_r by lia. rewrite Hl, Nat.sub_diag, E. reflexivity.
      * rewrite lookup_app_l by lia. apply Hk. lia.
    + eapply steps_app; [exact Hs|]. eapply steps_cons; [|apply steps_nil].
      unfold element_children_next_i. cbn [ci_init ci_parent ci_next negb]. rewrite E' at 1.
      rewrite (next_shown p c _ _ o' g' Hc eq_refl), <-wide_at_S, E. reflexivity.
Qed.
End wide.
Lemma steps_yields_prefix {S A} (next : iter S A) s l s' l' : steps next s l s' -> yields next s l' -> exists l'', l' = l ++ l''.
Proof.
  intros H. revert l'. induction H as [s|s a s1 l s2 E H IH]; intros l' Hy; [by exists l'|].
  inversion Hy as [? ? E1|? ? ? ? E1 Hy']; subst; rewrite E in E1; [discriminate|].
  injection E1 as <- <-. destruct (IH _ Hy') as [l'' ->]. by exists l''.
Qed.
Lemma steps_collect {S A} (next : iter S A) s l s' fuel : steps next s l s' -> fuel <= length l -> collect next fuel s = Err Diverge.
Proof.
  intros H. revert fuel. induction H as [s|s a s1 l s2 E H IH]; intros [|fuel] Hf; simpl in *; try reflexivity; [lia|].
  rewrite E. simpl. rewrite IH by lia. reflexivity.
Qed.
(** [replace_with] reads of an element its kind, its parent and its index *)
Lemma replace_with_like al c1 c2 r :
  c_kind c1 = c_kind c2 -> c_parent c1 = c_parent c2 -> c_index c1 = c_index c2 ->
  replace_with al c1 r = replace_with al c2 r.
Proof.
  destruct c1, c2; simpl; intros Hk Hp Hi; unfold c_kind in Hk; simpl in Hk; try discriminate; rewrite Hk.
  - reflexivity.
  - injection Hp as <-. by rewrite Hi.
Qed.
(** a tree as wide as that *)
Lemma wide_built n : exists g, built g /\ gis_node g = true /\ length (gchildren g) = n /\ forall x, x ∈ gchildren g -> gkind x.2 = 1%N.
Proof.
  set (els := replicate n (GTok 1 1 [])).
  assert (Hw : Forall wfg els) by (apply Forall_replicate, wfg_tok; apply N.le_0_l).
  assert (Ht : gctext els = []).
  { unfold els. clear. induction n as [|n IH]; [reflexivity|]. exact IH. }
  assert (Hb : (blen (gctext els) <= u32_max)%N) by (rewrite Ht; apply N.le_0_l).
  exists (GNode 0 0 (blen (gctext els)) (with_offsets 0 els)).
  pose proof (green_new_fits Checked 0 0 els Hw Hb) as E.
  assert (Hs : map snd (with_offsets 0 els) = els).
  { clear. generalize 0%N. induction els as [|x l IH]; intros o; [reflexivity|]. simpl. f_equal. apply IH. }
  split; [|split; [reflexivity|split]].
  - eapply built_node; [|exact E]. apply Forall_replicate. apply (built_token 1 1 []). apply N.le_0_l.
  - cbn [gchildren]. rewrite <-(replicate_length n (GTok 1 1 [])). fold els. rewrite <-Hs at 2. by rewrite map_length.
  - cbn [gchildren]. intros x Hx. assert (Hin : x.2 ∈ els) by (rewrite <-Hs; by apply elem_of_list_fmap_1).
    unfold els in Hin. apply elem_of_replicate in Hin as [-> _]. reflexivity.
Qed.
(** proof device: the largest number of children of a node *)
Fixpoint widest (g : green) : nat :=
  match g with
  | GTok _ _ _ => 0
  | GNode _ _ _ cs => max (length cs) (fold_right (fun c n => max (widest c.2) n) 0 cs)
  end.
Lemma widest_gsub g p g' : gsub g p = Some g' -> length (gchildren g') <= widest g.
Proof.
  revert p. induction g as [a k tl cs IH|a k s] using green_ind'; intros [|i p] H.
  - injection H as <-. simpl. lia.
  - simpl in H. destruct (cs !! i) as [ch|] eqn:E; [|discriminate]. cbn [widest].
    transitivity (widest ch.2); [|etransitivity; [|apply Nat.le_max_r]].
    + rewrite Forall_forall in IH. eapply IH; [|exact H]. by eapply elem_of_list_lookup_2.
    + clear -E. revert i E. induction cs as [|x cs IH]; intros i E; [discriminate|]. simpl.
      destruct i as [|i]; [injection E as <-; lia|]. specialize (IH _ E). lia.
  - injection H as <-. simpl. lia.
  - discriminate.
Qed.
Lemma w32_ge n : (N.of_nat n <=? 2 ^ 32)%N = true -> n <= w32.
Proof. Local Transparent w32. unfold w32. generalize (2 ^ 32)%N. intros m H%N.leb_le. lia. Qed.
Lemma widest_narrow g : (N.of_nat (widest g) <=? 2 ^ 32)%N = true -> narrow g.
Proof. intros H%w32_ge p g' Hp. apply widest_gsub in Hp. lia. Qed.
