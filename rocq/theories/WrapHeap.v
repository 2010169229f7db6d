(** * Ranges of handles on edited trees in release builds *)
From Verif Require Export Wrapped WrapGreenFacts.

(** ** All green elements in a heap are those of a release build *)
(** proof device, no counterpart in the code *)
Definition HG (h : heap) : Prop := forall x n, hn h !! x = Some n -> built_rel (n_grn n).
(** a call keeps it so; proof device, no counterpart in the code *)
Definition gt {A} (Q : A -> Prop) (m : hm A) : Prop := forall h, HG h ->
  match m h with (Ok a, h') => Q a /\ HG h' | _ => True end.
Notation any_ := (fun _ => True).
(** proof device, no counterpart in the code *)
Definition bcs (cs : list (N * green)) : Prop := forall c, c ∈ cs -> built_rel c.2.
(** proof device, no counterpart in the code *)
Definition bso (o : option (nat * (N * green))) : Prop := match o with Some ic => built_rel ic.2.2 | None => True end.

Lemma gt_bind {A B} (P : A -> Prop) (Q : B -> Prop) (m : hm A) f : gt P m -> (forall a, P a -> gt Q (f a)) -> gt Q (m ≫= f).
Proof.
  intros H Hf h Hh. specialize (H h Hh). unfold mbind, hm_bind. destruct (m h) as [[a|e] h'].
  - destruct H as [H1 H2]. by apply Hf.
  - done.
Qed.
Lemma gt_mono {A} (P Q : A -> Prop) m : gt P m -> (forall a, P a -> Q a) -> gt Q m.
Proof. intros H HPQ h Hh. specialize (H h Hh). destruct (m h) as [[a|e] h']; [|done]. destruct H. split; auto. Qed.
Lemma gt_ret {A} (Q : A -> Prop) a : Q a -> gt Q (mret a).
Proof. intros H h Hh. done. Qed.
Lemma gt_lift {A} (Q : A -> Prop) r : (forall a, r = Ok a -> Q a) -> gt Q (lift r).
Proof. intros H h Hh. unfold lift. destruct r; [|done]. split; [by apply H|done]. Qed.
Lemma gt_panic {A} (Q : A -> Prop) : gt Q hpanic.
Proof. by intros h Hh. Qed.
Lemma gt_skip : gt any_ hskip.
Proof. by intros h Hh. Qed.
Lemma gt_assert b : gt any_ (hassert b).
Proof. intros h Hh. by destruct b. Qed.
Lemma gt_get p : gt (fun n => built_rel (n_grn n)) (h_get p).
Proof. intros h Hh. unfold h_get. destruct (hn h !! p) eqn:E; [|done]. split; [by eapply Hh|done]. Qed.
Lemma gt_mod p f : (forall n, built_rel (n_grn n) -> built_rel (n_grn (f n))) -> gt any_ (h_mod p f).
Proof.
  intros H h Hh. unfold h_mod. destruct (hn h !! p) as [n|] eqn:E; [|done]. split; [done|]. intros x m. cbn [set_hn hn].
  destruct (decide (x = p)) as [->|Hne]; [rewrite lookup_insert; intros [= <-]; by eapply H, Hh|rewrite lookup_insert_ne by done; apply Hh].
Qed.
Lemma gt_ptr o : gt any_ (h_ptr o).
Proof. by apply gt_lift. Qed.
Lemma gt_alloc env n : built_rel (n_grn n) -> gt any_ (h_alloc env n).
Proof.
  intros H h Hh. unfold h_alloc. split; [done|]. intros x m. cbn [hn].
  destruct (decide (x = nalloc env (ck h) (dom (hn h)))) as [->|Hne]; [rewrite lookup_insert; by intros [= <-]|rewrite lookup_insert_ne by done; apply Hh].
Qed.
Lemma gt_del p : gt any_ (h_del p).
Proof. intros h Hh. unfold h_del. split; [done|]. intros x m. cbn [set_hn hn]. intros [_ H]%lookup_delete_Some. by eapply Hh. Qed.
Lemma gt_size : gt any_ h_size.
Proof. by intros h Hh. Qed.
Lemma gt_green_own g : gt any_ (h_green_own g).
Proof. intros h Hh. unfold h_green_own. by destruct (g_live h g). Qed.
Lemma gt_green_read g : gt any_ (h_green_read g).
Proof. intros h Hh. unfold h_green_read. by destruct (g_live h g). Qed.
Lemma gt_green_drop g : gt any_ (h_green_drop g).
Proof. intros h Hh. unfold h_green_drop. by destruct (remove_addr _ _). Qed.
Lemma gt_green_build env f used : (forall a g, f a = Ok g -> built_rel g) -> gt built_rel (h_green_build env f used).
Proof.
  intros H h Hh. unfold h_green_build. destruct (match used with Some u => _ | None => _ end); [|done]. destruct (f _) as [g|] eqn:E; [|done].
  split; [by eapply H|done].
Qed.
Lemma gt_green p : gt built_rel (h_green p).
Proof. intros h Hh. unfold h_green. destruct (hn h !! p) as [n|] eqn:E; [|done]. destruct (g_live h (n_grn n)); [|done]. split; [by eapply Hh|done]. Qed.

Create HintDb gt.
Ltac gt1 := lazymatch goal with
  | |- gt _ (_ ≫= _) => eapply gt_bind; [|intros ? ?]
  | |- gt _ (hassert _) => apply gt_assert
  | |- gt _ hskip => apply gt_skip
  | |- gt _ (@hdebug _ _) => apply gt_skip
  | |- gt _ (mret _) => apply gt_ret; try done
  | |- gt _ hpanic => apply gt_panic
  | |- gt _ (h_get _) => apply gt_get
  | |- gt _ (h_mod _ _) => apply gt_mod; try done
  | |- gt _ (h_ptr _) => apply gt_ptr
  | |- gt _ (h_alloc _ _) => apply gt_alloc; try done
  | |- gt _ (h_del _) => apply gt_del
  | |- gt _ h_size => apply gt_size
  | |- gt _ (h_green_own _) => apply gt_green_own
  | |- gt _ (h_green_read _) => apply gt_green_read
  | |- gt _ (h_green_drop _) => apply gt_green_drop
  | |- gt _ (h_green _) => apply gt_green
  | |- gt _ (match ?x with _ => _ end) => destruct x
  | |- gt _ (lift _) => first [solve [eauto with gt nocore]|by apply (gt_lift any_)]
  | |- gt _ _ => solve [eauto with gt nocore]
  end.
Ltac gts := repeat gt1.

Lemma g_inc p : gt any_ (h_inc_rc p).
Proof. unfold h_inc_rc. gts. Qed.
Global Hint Resolve g_inc : gt.
Lemma g_clone p : gt any_ (h_clone p).
Proof. unfold h_clone. gts. Qed.
Global Hint Resolve g_clone : gt.
Lemma g_add_to_sll r e : gt any_ (h_add_to_sll r e).
Proof. unfold h_add_to_sll. gts. Qed.
Global Hint Resolve g_add_to_sll : gt.
Lemma g_unlink x e : gt any_ (@h_unlink W x e).
Proof. unfold h_unlink. gts. Qed.
Global Hint Resolve g_unlink : gt.
Lemma g_link_loop fuel : forall c k, gt any_ (h_link_loop fuel c k).
Proof. induction fuel as [|fuel IH]; intros c k; cbn [h_link_loop]; gts. Qed.
Global Hint Resolve g_link_loop : gt.
Lemma g_link x k : gt any_ (h_link x k).
Proof. unfold h_link. gts. Qed.
Global Hint Resolve g_link : gt.
Lemma g_adjust_loop fuel e : forall c from d, gt any_ (@h_adjust_loop W fuel e c from d).
Proof. induction fuel as [|fuel IH]; intros c from d; cbn [h_adjust_loop]; gts. Qed.
Global Hint Resolve g_adjust_loop : gt.
Lemma g_adjust e from d : gt any_ (@h_adjust W e from d).
Proof. unfold h_adjust. gts. Qed.
Global Hint Resolve g_adjust : gt.
Lemma g_dec p : gt any_ (@h_dec_rc W p).
Proof. unfold h_dec_rc. gts. Qed.
Global Hint Resolve g_dec : gt.
Lemma g_free_loop fuel : forall p, gt any_ (@h_free_loop W fuel p).
Proof. induction fuel as [|fuel IH]; intros p; cbn [h_free_loop]; gts. Qed.
Global Hint Resolve g_free_loop : gt.
Lemma g_free p : gt any_ (@h_free W p).
Proof. unfold h_free. gts. Qed.
Global Hint Resolve g_free : gt.
Lemma g_drop p : gt any_ (@h_drop W p).
Proof. unfold h_drop. gts. Qed.
Global Hint Resolve g_drop : gt.
Lemma g_drop_opt p : gt any_ (@h_drop_opt W p).
Proof. unfold h_drop_opt. gts. Qed.
Global Hint Resolve g_drop_opt : gt.
Lemma g_new env parent i o g m : built_rel g -> gt any_ (@h_new W env parent i o g m).
Proof. intros Hg. unfold h_new. gts. Qed.
Global Hint Resolve g_new : gt.
Lemma g_offset_mut_loop fuel : forall p o, gt any_ (@h_offset_mut_loop W fuel p o).
Proof. induction fuel as [|fuel IH]; intros p o; cbn [h_offset_mut_loop]; gts. Qed.
Global Hint Resolve g_offset_mut_loop : gt.
Lemma g_offset p : gt any_ (@h_offset W p).
Proof. unfold h_offset. gts. Qed.
Lemma g_index p : gt any_ (h_index p).
Proof. unfold h_index. gts. Qed.
Global Hint Resolve g_offset g_index : gt.
Lemma bcs_green g : built_rel g -> bcs (gchildren g).
Proof. intros Hg c Hc. by eapply br_child. Qed.
Lemma g_siblings p : gt bcs (@h_green_siblings W p).
Proof. unfold h_green_siblings. gts; [by apply bcs_green|by intros c ?%elem_of_nil]. Qed.
Lemma g_new_root env g : built_rel g -> gt any_ (@h_new_root W env g).
Proof. intros Hg. unfold h_new_root. gts. Qed.
Lemma g_new_root_mut env g : built_rel g -> gt any_ (@h_new_root_mut W env g).
Proof. intros Hg. unfold h_new_root_mut. gts. Qed.
Lemma g_parent p : gt any_ (@h_parent W p).
Proof. unfold h_parent. gts. Qed.
Global Hint Resolve g_siblings g_new_root g_new_root_mut g_parent : gt.
Lemma g_mk_child env p ic : built_rel ic.2.2 -> gt any_ (@h_mk_child W env p ic).
Proof. intros Hg. unfold h_mk_child. gts. Qed.
Global Hint Resolve g_mk_child : gt.
Lemma g_child_opt env sel p : (forall cs, bcs cs -> bso (sel cs)) -> gt any_ (@h_child_opt W env sel p).
Proof.
  intros H. unfold h_child_opt. eapply gt_bind; [apply gt_green|]. intros g Hg. specialize (H _ (bcs_green _ Hg)).
  eapply gt_bind; [apply gt_assert|]. intros _ _. destruct (sel (gchildren g)); simpl in H; gts.
Qed.
Lemma g_sibling_opt env sel p : (forall i cs, bcs cs -> bso (sel i cs)) -> gt any_ (@h_sibling_opt W env sel p).
Proof.
  intros H. unfold h_sibling_opt. eapply gt_bind; [apply g_siblings|]. intros cs Hcs. eapply gt_bind; [apply g_index|]. intros i _.
  specialize (H i cs Hcs). destruct (sel i cs); simpl in H; gts.
Qed.

(** ** What is selected among children *)
(** proof device, no counterpart in the code *)
Definition bis (l : list (nat * (N * green))) : Prop := forall x, x ∈ l -> built_rel x.2.2.
Lemma bis_enumerate cs : bcs cs -> bis (enumerate cs).
Proof.
  intros H [i c] (j&Hj)%elem_of_list_lookup. rewrite lookup_enumerate in Hj. destruct (cs !! j) as [d|] eqn:E; [|done]. simpl in Hj. injection Hj as <- <-.
  apply H. by eapply elem_of_list_lookup_2.
Qed.
Lemma bis_rev l : bis l -> bis (rev l).
Proof. intros H x Hx. apply H. by apply elem_of_list_In, in_rev, elem_of_list_In in Hx. Qed.
Lemma bis_drop n l : bis l -> bis (drop n l).
Proof. intros H x (i&Hi)%elem_of_list_lookup. apply H. rewrite lookup_drop in Hi. by eapply elem_of_list_lookup_2. Qed.
Lemma bso_find f l : (forall x y, f x = Some y -> y = x) -> bis l -> bso (find_map f l).
Proof.
  intros Hf H. induction l as [|x l IH]; [done|]. simpl. destruct (f x) as [y|] eqn:E; [|apply IH; intros z Hz; apply H; by right].
  rewrite (Hf _ _ E). apply (H x). left.
Qed.
Lemma bso_lookup l i : bis l -> bso (l !! i).
Proof. intros H. destruct (l !! i) as [x|] eqn:E; [|done]. apply (H x). by eapply elem_of_list_lookup_2. Qed.
Lemma bso_last l : bis l -> bso (last l).
Proof. intros H. rewrite last_lookup. by apply bso_lookup. Qed.
Lemma sel_node_id x y : sel_node x = Some y -> y = x.
Proof. unfold sel_node. destruct (gis_node _); congruence. Qed.
Lemma sel_kind_id m x y : sel_kind m x = Some y -> y = x.
Proof. unfold sel_kind. destruct (m _); congruence. Qed.
Lemma sel_node_kind_id m x y : sel_node_kind m x = Some y -> y = x.
Proof. unfold sel_node_kind. destruct (m _); [|done]. apply sel_node_id. Qed.
Lemma g_nav env n p : gt any_ (@h_nav W env n p).
Proof.
  destruct n; cbn [h_nav]; [apply g_parent|apply g_child_opt|apply g_child_opt|apply g_child_opt|apply g_child_opt|apply g_child_opt|apply g_child_opt|
    apply g_sibling_opt|apply g_sibling_opt|apply g_sibling_opt|apply g_sibling_opt|apply g_sibling_opt|apply g_sibling_opt].
  - intros cs H. apply bso_find; [apply sel_node_id|by apply bis_enumerate].
  - intros cs H. apply bso_find; [apply sel_node_id|by apply bis_rev, bis_enumerate].
  - intros cs H. apply bso_find; [apply sel_node_kind_id|by apply bis_enumerate].
  - intros [|c cs] H; [done|]. apply (H c). left.
  - intros cs H. by apply bso_last, bis_enumerate.
  - intros cs H. apply bso_find; [apply sel_kind_id|by apply bis_enumerate].
  - intros i cs H. apply bso_find; [apply sel_node_id|by apply bis_drop, bis_enumerate].
  - intros i cs H. cbn zeta. destruct (_ <? _); [done|]. apply bso_find; [apply sel_node_id|by apply bis_drop, bis_rev, bis_enumerate].
  - intros i cs H. apply bso_find; [apply sel_node_kind_id|by apply bis_drop, bis_enumerate].
  - intros i cs H. by apply bso_lookup, bis_enumerate.
  - intros [|i] cs H; [done|]. by apply bso_lookup, bis_enumerate.
  - intros i cs H. apply bso_find; [apply sel_kind_id|by apply bis_drop, bis_enumerate].
Qed.
Global Hint Resolve g_nav : gt.
Lemma g_can_take p : gt any_ (h_can_take_ptr p).
Proof. unfold h_can_take_ptr. gts. Qed.
Global Hint Resolve g_can_take : gt.
Lemma g_to_next env slow sel p : (forall x y, sel x = Some y -> y = x) -> gt any_ (slow p) -> gt any_ (@h_to_next W env slow sel p).
Proof.
  intros H Hs. unfold h_to_next. eapply gt_bind; [apply g_can_take|]. intros can _. destruct (negb can); [gts|].
  eapply gt_bind; [apply g_parent|]. intros [q|] _; [|gts].
  eapply gt_bind; [apply g_offset|]. intros o _. eapply gt_bind; [apply gt_green|]. intros g Hg.
  eapply gt_bind; [apply gt_assert|]. intros _ _. eapply gt_bind; [apply gt_get|]. intros n Hn.
  pose proof (bso_find sel (drop (n_idx n + 1) (enumerate (gchildren g))) H ltac:(by apply bis_drop, bis_enumerate, bcs_green)) as Hb.
  eapply (gt_bind any_); [|intros ? _; gts]. destruct (find_map sel _) as [[i [ro c]]|]; simpl in Hb; gts.
Qed.
Lemma g_to_next_any env tok p : gt any_ (@h_to_next_any env W tok p).
Proof.
  destruct tok; apply g_to_next; [intros x y; congruence|apply (g_nav env NNextSiblingOrToken)|apply sel_node_id|apply (g_nav env NNextSibling)].
Qed.
Global Hint Resolve g_to_next_any : gt.
Lemma g_cfu_loop env fuel : forall p, gt any_ (@h_clone_for_update_loop W env fuel p).
Proof. induction fuel as [|fuel IH]; intros p; cbn [h_clone_for_update_loop]; gts. Qed.
Global Hint Resolve g_cfu_loop : gt.
Lemma g_cfu env p : gt any_ (@h_clone_for_update W env p).
Proof. unfold h_clone_for_update. gts. Qed.
Lemma g_clone_subtree env p : gt any_ (@h_clone_subtree W env p).
Proof. unfold h_clone_subtree. gts. Qed.
Global Hint Resolve g_cfu g_clone_subtree : gt.

(** ** Mutation *)
Lemma g_respine_loop env fuel : forall p g, built_rel g -> gt any_ (@h_respine_loop W env fuel p g).
Proof.
  induction fuel as [|fuel IH]; intros p g Hg; cbn [h_respine_loop]; [by apply (gt_lift any_)|]. eapply gt_bind; [apply gt_get|]. intros n Hn.
  eapply gt_bind; [apply gt_assert|]. intros _ _. eapply gt_bind; [by apply gt_mod|]. intros _ _.
  destruct (n_par n) as [q|]; [|apply gt_green_drop]. eapply gt_bind; [apply gt_green|]. intros pg Hpg. eapply gt_bind; [apply gt_assert|]. intros _ _.
  eapply gt_bind; [apply gt_green_build; intros a g' E; eapply br_replace; [exact Hpg|exact Hg|exact E]|]. intros g'. apply IH.
Qed.
Global Hint Resolve g_respine_loop : gt.
Lemma g_respine env p g : built_rel g -> gt any_ (@h_respine W env p g).
Proof. intros Hg. unfold h_respine. gts. Qed.
Global Hint Resolve g_respine : gt.
Lemma g_remove env g i : built_rel g -> gt built_rel (h_green_build env (fun a => green_remove_child W a g i) None).
Proof. intros Hg. apply gt_green_build. intros a g' E. eapply br_splice; [exact Hg|apply Forall_nil_2|exact E]. Qed.
Lemma g_insert env g i x : built_rel g -> built_rel x -> gt built_rel (h_green_build env (fun a => green_insert_child W a g i x) (Some x)).
Proof. intros Hg Hx. apply gt_green_build. intros a g' E. eapply br_splice; [exact Hg|by apply Forall_singleton|exact E]. Qed.
Global Hint Resolve g_remove g_insert : gt.
Lemma g_detach env p : gt any_ (@h_detach W env p).
Proof. unfold h_detach. gts. Qed.
Global Hint Resolve g_detach : gt.
Lemma g_attach_data env p i c : gt any_ (@h_attach_data W env p i c).
Proof.
  unfold h_attach_data, h_attach_with. do 7 (gt1; [gts|]). gt1; [gts|]. eapply (gt_bind any_); [gts|intros ? _]. gt1; [gts|]. eapply (gt_bind any_); [gts|intros ? _]. gts.
Qed.
Global Hint Resolve g_attach_data : gt.
Lemma g_attach_child env p i c : gt any_ (@h_attach_child W env p i c).
Proof. unfold h_attach_child. gts. Qed.
Global Hint Resolve g_attach_child : gt.

(** ** Loops *)
Lemma g_children_new p : gt any_ (h_children_new p).
Proof. unfold h_children_new. gts. Qed.
Lemma g_clone_opt o : gt any_ (h_clone_opt o).
Proof. unfold h_clone_opt. gts. Qed.
Lemma g_children_drop it : gt any_ (@h_children_drop W it).
Proof. unfold h_children_drop. gts. Qed.
Global Hint Resolve g_children_new g_clone_opt g_children_drop : gt.
Lemma g_kids_next env tok it : gt any_ (@h_kids_next env W tok it).
Proof.
  destruct tok; unfold h_kids_next, h_element_children_next, h_node_children_next; (eapply (gt_bind any_); [|intros ? ?; gts]).
  - destruct (negb (hc_init it)); [apply (g_nav env NFirstChildOrToken)|]. destruct (hc_next it); [apply (g_to_next_any env true)|gts].
  - destruct (negb (hc_init it)); [apply (g_nav env NFirstChild)|]. destruct (hc_next it); [apply (g_to_next_any env false)|gts].
Qed.
Global Hint Resolve g_kids_next : gt.
Lemma g_detach_loop env next sel fuel : (forall it, gt any_ (next it)) -> forall i it, gt any_ (@h_detach_loop W env next sel fuel i it).
Proof.
  intros H. induction fuel as [|fuel IH]; intros i it; cbn [h_detach_loop]; [by apply (gt_lift any_)|]. eapply gt_bind; [apply H|]. intros [o it'] _. cbn beta iota. gts.
Qed.
Lemma g_attach_all env p l : forall i, gt any_ (@h_attach_all W env p i l).
Proof. induction l as [|c l IH]; intros i; cbn [h_attach_all]; gts. Qed.
Global Hint Resolve g_attach_all : gt.
Lemma g_splice env p a b l : gt any_ (@h_splice_children W env p a b l).
Proof.
  unfold h_splice_children. eapply gt_bind; [apply gt_get|]. intros n _. eapply gt_bind; [apply gt_assert|]. intros _ _. eapply gt_bind; [apply gt_green|]. intros g _.
  eapply gt_bind; [apply g_children_new|]. intros it _. eapply (gt_bind any_); [|intros ? _; apply g_attach_all].
  apply g_detach_loop. intros it'. apply (g_kids_next env true).
Qed.
Global Hint Resolve g_splice : gt.
Lemma g_by_kind_new env tok m p : gt any_ (@h_by_kind_new env W tok m p).
Proof.
  unfold h_by_kind_new. eapply gt_bind; [apply g_clone|]. intros q _. eapply (gt_bind any_); [|intros ? ?; gts].
  destruct tok; [apply (g_nav env (NFirstChildOrTokenByKind m))|apply (g_nav env (NFirstChildByKind m))].
Qed.
Lemma g_by_kind_next env tok m o : gt any_ (@h_by_kind_next env W tok m o).
Proof.
  unfold h_by_kind_next. destruct o as [x|]; [|gts]. eapply (gt_bind any_); [|intros ? ?; gts].
  destruct tok; [apply (g_nav env (NNextSiblingOrTokenByKind m))|apply (g_nav env (NNextSiblingByKind m))].
Qed.
Lemma g_by_kind_loop env tok m fuel : forall o, gt any_ (@h_by_kind_detach_loop env W tok m fuel o).
Proof.
  induction fuel as [|fuel IH]; intros o; cbn [h_by_kind_detach_loop]; [by apply (gt_lift any_)|]. eapply gt_bind; [apply g_by_kind_next|]. intros [c nx] _. cbn beta iota. gts.
Qed.

(** ** Calls *)
(** proof device, no counterpart in the code *)
Definition Hsg (hs : hst) : Prop := forall i g, h_greens hs !! i = Some (Some g) -> built_rel g.
Lemma Hsg_add g hs : built_rel g -> Hsg hs -> Hsg (hgadd g hs).
Proof.
  intros Hg H i x. cbn [hgadd h_greens]. intros [Hi|[_ Hi]]%lookup_app_Some; [by eapply H|]. apply list_lookup_singleton_Some in Hi as [_ [= ->]]. done.
Qed.
Lemma Hsg_del g hs : Hsg hs -> Hsg (hgdel g hs).
Proof. intros H i x. cbn [hgdel h_greens]. intros [(_&?&_)|[_ Hi]]%list_lookup_insert_Some; [done|by eapply H]. Qed.
Lemma Hsg_dels ins : forall hs, Hsg hs -> Hsg (foldl (fun hs c => hdel c hs) hs ins).
Proof. induction ins as [|c ins IH]; intros hs H; [done|]. by apply IH. Qed.
Lemma Hsg_all hs els gs : Hsg hs -> mapM (fun g => mjoin (h_greens hs !! g)) els = Some gs -> Forall built_rel gs.
Proof.
  intros H. revert gs. induction els as [|e els IH]; intros gs; cbn [mapM]; [intros [= <-]; apply Forall_nil_2|].
  destruct (h_greens hs !! e) as [[g|]|] eqn:E; [|done|done]. simpl. destruct (mapM _ els) as [gs'|]; [|done]. intros [= <-].
  apply Forall_cons_2; [by eapply H|by apply IH].
Qed.
Lemma gt_slot {A} (o : option (option A)) : gt (fun a => o = Some (Some a)) (h_slot o).
Proof. destruct o as [[a|]|]; intros h Hh; done. Qed.
Lemma gt_ro {A} (m : hm A) : (forall h, (m h).2 = h) -> gt any_ m.
Proof. intros H h Hh. specialize (H h). destruct (m h) as [[a|e] h']; [|done]. simpl in H. by subst. Qed.
Lemma g_text_range x : gt any_ (@h_text_range W x).
Proof. apply gt_ro. apply text_range_ro. Qed.
Global Hint Resolve g_text_range : gt.
Lemma g_look x : gt any_ (@h_look W x).
Proof.
  unfold h_look, h_kind. gt1; [gts|]. gt1; [gts|]. eapply (gt_bind any_); [gts|intros ? _]. eapply (gt_bind any_); [gts|intros ? _]. gts.
Qed.
Global Hint Resolve g_look : gt.
Lemma g_step env o hs : no_range o -> Hsg hs -> gt (fun r => Hsg r.1) (@hstep W env o hs).
Proof.
  intros Hr Hs.
  assert (H1 : forall {A} (m : hm A) (f : A -> hst * obs), gt any_ m -> (forall a, Hsg (f a).1) -> gt (fun r => Hsg r.1) (m ≫= fun a => mret (f a))).
  { intros A m f Hm Hf. eapply gt_bind; [exact Hm|]. intros a _. apply gt_ret, Hf. }
  assert (Hb : forall m, gt built_rel m -> gt (fun r => Hsg r.1) (m ≫= fun g => mret (hgadd g hs, @None look))).
  { intros m H. eapply gt_bind; [exact H|]. intros g Hg. apply gt_ret. by apply Hsg_add. }
  destruct o; cbn [hstep]; try (exfalso; exact Hr); try (eapply gt_bind; [apply gt_slot|intros x Hx; cbv beta in Hx]).
  - apply Hb, gt_green_build. intros a g [= <-]. apply br_token.
  - destruct (mapM _ els) as [gs|] eqn:E; [|apply gt_panic]. apply Hb, gt_green_build. intros a g Eg. eapply br_node; [|exact Eg]. by eapply Hsg_all.
  - apply (H1 _ _ (fun _ => (hgdel g hs, @None look))); [apply gt_green_drop|]. intros _. by apply Hsg_del.
  - eapply gt_bind; [apply gt_green_own|]. intros _ _. apply (H1 _ _ (fun y => (hadd (Some y) hs, @None look))); [|done].
    destruct mut; [apply g_new_root_mut|apply g_new_root]; exact (Hs _ _ Hx).
  - eapply gt_bind; [apply gt_green|]. intros g Hg. apply (H1 _ _ (fun _ => (hgadd g hs, @None look))); [apply gt_green_own|]. intros _. by apply Hsg_add.
  - by apply (H1 _ _ (fun y => (hadd (Some y) hs, @None look))); [gts|].
  - by apply (H1 _ _ (fun y => (hdel s hs, @None look))); [gts|].
  - by apply (H1 _ _ (fun y => (hadd y hs, @None look))); [gts|].
  - by apply (H1 _ _ (fun y => (hadd y (hdel s hs), @None look))); [gts|].
  - by apply (H1 _ _ (fun y => (hadd (Some y) hs, @None look))); [gts|].
  - by apply (H1 _ _ (fun y => (hadd (Some y) hs, @None look))); [gts|].
  - by apply (H1 _ _ (fun y => (hs, @None look))); [gts|].
  - destruct (mapM _ ins) as [ys|]; [|apply gt_panic]. apply (H1 _ _ (fun _ => (foldl (fun hs c => hdel c hs) hs ins, @None look))); [gts|]. intros _. by apply Hsg_dels.
  - eapply gt_bind; [apply gt_green|]. intros g _. eapply gt_bind; [apply g_children_new|]. intros it _.
    apply (H1 _ _ (fun _ => (hs, @None look))); [|done]. apply g_detach_loop. apply g_kids_next.
  - eapply gt_bind; [apply gt_green|]. intros g _. eapply gt_bind; [apply g_by_kind_new|]. intros it _.
    apply (H1 _ _ (fun _ => (hs, @None look))); [|done]. apply g_by_kind_loop.
  - by apply (H1 _ _ (fun l => (hs, Some l))); [gts|].
  - eapply gt_bind; [apply gt_green_read|]. intros _ _. destruct (mapM _ els) as [gs|] eqn:E; [|apply gt_panic].
    apply Hb, gt_green_build. intros ad g' Eg. eapply br_splice; [exact (Hs _ _ Hx)|by eapply Hsg_all|exact Eg].
  - eapply gt_bind; [apply gt_green_read|]. intros _ _. eapply gt_bind; [apply gt_slot|intros y Hy].
    apply Hb, gt_green_build. intros ad g' Eg. eapply br_replace; [exact (Hs _ _ Hx)|exact (Hs _ _ Hy)|exact Eg].
  - eapply gt_bind; [apply gt_green_read|]. intros _ _. destruct (map snd (gchildren x) !! i) as [y|] eqn:E; [|apply gt_panic].
    apply (H1 _ _ (fun _ => (hgadd y hs, @None look))); [apply gt_green_own|]. intros _. apply Hsg_add; [|done].
    rewrite list_lookup_fmap in E. destruct (gchildren x !! i) as [c|] eqn:Ec; [|done]. injection E as <-. eapply br_child; [exact (Hs _ _ Hx)|by eapply elem_of_list_lookup_2].
  - eapply gt_bind; [apply gt_green_read|]. intros _ _. apply (H1 _ _ (fun len => (hs, Some (Look false None (gkind x) (0%N, len) (erase x))))); [by apply gt_lift|done].
Qed.
Lemma g_run env prog : Forall no_range prog -> forall hs, Hsg hs -> gt (fun r => Hsg r.1) (@hrun W env prog hs).
Proof.
  induction 1 as [|o prog Hr _ IH]; intros hs Hs; cbn [hrun]; [by apply gt_ret|]. eapply gt_bind; [by apply g_step|]. intros [hs1 x] H1.
  eapply gt_bind; [by apply IH|]. intros [hs2 xs] H2. by apply gt_ret.
Qed.
Lemma g_client env prog hs os h : Forall no_range prog -> @client W env prog = (Ok (hs, os), h) -> Hsg hs /\ HG h.
Proof.
  intros Hr E. pose proof (g_run env prog Hr h_init) as H. specialize (H ltac:(intros i g Hi; cbn [h_init h_greens] in Hi; by rewrite lookup_nil in Hi) (HP ∅ [] 0)).
  unfold client in E. rewrite E in H. apply H. intros x n Hx. cbn [hn] in Hx. by rewrite lookup_empty in Hx.
Qed.

(** ** Offsets *)
Lemma tsub_hide t p : tsub (hide t) p = hide <$> tsub t p.
Proof.
  revert t. induction p as [|i p IH]; intros t; [done|]. destruct t as [k cs|k s]; [|done]. cbn [hide tsub tchildren].
  rewrite list_lookup_fmap. destruct (cs !! i) as [c|]; [apply IH|done].
Qed.
Lemma erase_gr_bare h r n : hn h !! r = Some n -> gr (pc (P (bh h))) r = bare (n_grn n).
Proof. intros Hn. unfold gr. rewrite P_pc. cbn [bh hn]. by rewrite lookup_fmap, Hn. Qed.
Section offsets.
Context (h : heap) (K : id -> list id) (R : list id) (G : list green).
Context (Hs : shape (pc (P (bh h))) K) (Ho : owned (pc (P (bh h))) R (po (P (bh h))) G) (Hg : HG h).
Lemma bare_core x cx : pc (P (bh h)) !! x = Some cx -> exists n, hn h !! x = Some n /\ cx = core_of (bn n).
Proof using Type. rewrite P_pc. cbn [bh hn]. rewrite lookup_fmap. destruct (hn h !! x) as [n|]; [|done]. intros [= <-]. by exists n. Qed.
Lemma bare_green x n : hn h !! x = Some n -> h_green x h = (Ok (n_grn n), h).
Proof using Hs Ho.
  intros Hn. unfold h_green. rewrite Hn. assert (g_live h (n_grn n) = true) as ->; [|done]. rewrite <- g_live_bare. unfold g_live. apply bool_decide_eq_true_2.
  apply live_addr. change (ow (bh h)) with (po (P (bh h))). eapply (owned_live _ _ _ _ _ x (core_of (bn n))); [exact Hs|exact Ho|].
  rewrite P_pc. cbn [bh hn]. by rewrite lookup_fmap, Hn.
Qed.
Lemma loc_hide x r p nr n : loc (pc (P (bh h))) x r p -> hn h !! r = Some nr -> hn h !! x = Some n -> tsub (erase (n_grn nr)) p = Some (erase (n_grn n)).
Proof using Hs.
  intros Hl Hr Hn. destruct (loc_gsub _ _ Hs _ _ _ Hl) as (cr&cx&Hcr&_&Hcx&Hsub&_).
  apply bare_core in Hcr as (nr'&Hr'&->). apply bare_core in Hcx as (n'&Hn'&->). rewrite Hr in Hr'. injection Hr' as <-. rewrite Hn in Hn'. injection Hn' as <-.
  cbn [core_of bn o_grn n_grn] in Hsub.
  assert (E : tsub (hide (erase (n_grn nr))) p = Some (hide (erase (n_grn n)))) by (rewrite <- !erase_bare, erase_gsub, Hsub; done).
  rewrite tsub_hide in E. destruct (tsub (erase (n_grn nr)) p) as [u|]; [|done]. injection E as E. f_equal. by apply hide_inj.
Qed.
Lemma off_loop x r p : loc (pc (P (bh h))) x r p -> forall fuel acc nr, length p < fuel -> (acc <= u32_max)%N -> hn h !! r = Some nr ->
  @h_offset_mut_loop W fuel x acc h = (Ok (m32 (acc + blen (tbefore (erase (n_grn nr)) p))), h).
Proof using Hs Ho Hg.
  induction 1 as [x cx Hx Hp|x cx q r p Hx Hp Hl IH]; intros fuel acc nr Hf Ha Hr; (destruct fuel as [|fuel]; [lia|]); cbn [h_offset_mut_loop].
  - apply bare_core in Hx as (n&Hn&->). cbn [core_of bn o_par n_par] in Hp. unfold mbind, hm_bind, h_get. rewrite Hn, Hp. cbn [tbefore]. change (blen []) with 0%N.
    rewrite N.add_0_r, m32_small by exact Ha. done.
  - destruct (sh_child _ _ Hs _ _ _ Hx Hp) as (cq&rel&Hq&_&Hch&_). apply bare_core in Hx as (n&Hn&->). apply bare_core in Hq as (nq&Hq&->).
    cbn [core_of bn o_par o_idx o_grn n_par n_idx n_grn] in *. rewrite app_length in Hf. simpl in Hf.
    rewrite gchildren_bare, list_lookup_fmap in Hch. destruct (gchildren (n_grn nq) !! n_idx n) as [c|] eqn:Ec; [|done].
    unfold mbind at 1, hm_bind at 1, h_get. rewrite Hn, Hp. unfold mbind at 1, hm_bind at 1. rewrite (bare_green q nq Hq).
    unfold mbind at 1, hm_bind at 1, hassert, lift. rewrite (gch_node _ _ _ Ec). cbn [rassert]. unfold mbind at 1, hm_bind at 1. rewrite Ec. cbn [unwrap].
    unfold mbind at 1, hm_bind at 1. rewrite add32_rel. rewrite (IH fuel (m32 (acc + c.1)) nr ltac:(lia) ltac:(apply m32_lt) Hr).
    f_equal. f_equal. rewrite (tbefore_snoc _ _ _ _ (loc_hide _ _ _ _ _ Hl Hr Hq)), blen_app.
    destruct (wfw_lookup _ _ _ (built_rel_wfw _ (Hg _ _ Hq)) Ec) as [_ E]. rewrite E, gctext_ctext, erase_children, take_map.
    rewrite !m32_add. rewrite <- N.add_assoc, (N.add_comm (m32 _)), N.add_assoc, m32_add_r. f_equal. unfold ctext. lia.
Qed.
End offsets.

(** ** Looking *)
(** specification: what is shown through a handle on a mutable tree in a release build; the range is the true one modulo 2^32,
    and a range whose end then is before its start is refused (cursor.rs:341-374) *)
Definition rel_look (t : tree) (p : pos) (x : tree) : res look :=
  let a := blen (tbefore t p) in
  let b := (a + blen (ttext x))%N in
  if (m32 a <=? m32 b)%N then Ok (Look true (last p) (tkind x) (m32 a, m32 b) x) else Err Panic.
Lemma rel_look_sim env st hs h s n p t' : simulates st (bhs hs) (bh h) -> mute st -> HG h ->
  s_handles st !! s = Some (Some (@pair nat pos n p)) -> s_trees st !! n = Some (true, t') ->
  exists t x, t' = hide t /\ tsub t p = Some x /\
    @hstep W env (OLook s) hs h = (l ← rel_look t p x; Ok (hs, Some l), h).
Proof.
  intros (zs&lk&Hsim) Hm HG0 Hs Ht. pose proof (sm_sim _ _ _ _ _ _ Hsim) as HS. pose proof (sm_pos _ _ _ _ _ _ Hsim) as Hp. pose proof (sm_handles _ _ _ _ _ _ Hsim) as Hh.
  rewrite Hp in Hs. apply lookup_map_fmap in Hs as (z&Hz&Ez).
  assert (Hx : h_handles hs !! s = Some (Some z.1)). { cbn [bhs h_handles] in Hh. rewrite Hh. by apply lookup_map_some. }
  assert (HzZ : z ∈ [] ++ somes zs ++ lk). { cbn [app]. apply elem_of_app. left. by eapply slot_elem. }
  destruct (simH_alive _ _ _ _ _ HS HzZ) as (r&m&cz&Hl&HT&Hcz&Hmu&Hsub). rewrite <- Ez in HT, Hl, Hsub. cbn [fst snd] in HT, Hl, Hsub. rewrite Ht in HT. injection HT as <- ->.
  destruct HS as [(K&R&Hsh&Ho&_) _].
  destruct (bare_core h _ _ Hcz) as (nx&Hnx&->). cbn [core_of bn o_mut n_mut] in Hmu.
  assert (exists nr, hn h !! r = Some nr) as (nr&Hnr).
  { destruct (loc_gsub _ _ Hsh _ _ _ Hl) as (cr&_&Hcr&_). apply bare_core in Hcr as (nr&Hnr&_). by exists nr. }
  pose proof (loc_hide h K Hsh _ _ _ _ _ Hl Hnr Hnx) as Hsub'.
  exists (erase (n_grn nr)), (erase (n_grn nx)). split; [by rewrite (erase_gr_bare _ _ _ Hnr), erase_bare|]. split; [done|].
  assert (Hoff : @h_offset W z.1 h = (Ok (m32 (blen (tbefore (erase (n_grn nr)) p))), h)).
  { unfold h_offset, mbind, hm_bind, h_get. rewrite Hnx, Hmu. unfold h_size.
    rewrite (off_loop h K R _ Hsh Ho HG0 _ _ _ Hl _ 0%N nr); [done| |by vm_compute|done].
    pose proof (loc_depth _ _ Hsh _ _ _ Hl) as Hd. rewrite <- P_size in Hd. cbn [bh hn] in Hd. rewrite map_size_fmap in Hd. lia. }
  pose proof (bare_green h K R _ Hsh Ho _ _ Hnx) as Hgr.
  assert (Hlen : green_text_len (n_grn nx) = Ok (m32 (blen (ttext (erase (n_grn nx)))))).
  { rewrite wfw_text_len_fits; [done|by eapply built_rel_wfw, HG0|]. intros Htok. unfold gtext.
    assert (E : ttext (hide (erase (n_grn nx))) = []).
    { eapply mute_sub; [|eapply mute_tree; [exact Hm|exact Ht]]. rewrite (erase_gr_bare _ _ _ Hnr), erase_bare, tsub_hide, Hsub'. done. }
    destruct (erase (n_grn nx)) as [|k u]; [done|]. cbn [hide ttext] in E |- *. unfold rest in E. destruct (N.leb_spec (blen u) u32_max) as [Hle|Hlt]; [exact Hle|]. subst u. done. }
  assert (Hidx : (match n_par nx with Some _ => Some (n_idx nx) | None => None end) = last p).
  { destruct (n_par nx) as [q|] eqn:Hq.
    - destruct (loc_inv_child _ _ _ _ _ _ Hl Hcz Hq) as (p'&->&_). by rewrite last_snoc.
    - by destruct (loc_inv_root _ _ _ _ _ Hl Hcz Hq) as [_ ->]. }
  cbn [hstep]. rewrite Hx. unfold h_slot, h_look, h_index, h_kind, h_text_range, mbind, hm_bind, mret, hm_ret, h_get, lift. cbn [unwrap].
  rewrite Hnx. cbn beta iota. rewrite Hnx. cbn beta iota. rewrite Hgr. cbn beta iota. rewrite Hoff. cbn beta iota. rewrite Hgr. cbn beta iota. rewrite Hlen. cbn beta iota.
  unfold range_end, mbind, res_bind. rewrite add32_rel, m32_add, m32_add_r. unfold rel_look, rassert.
  destruct (_ <=? _)%N; [|done]. cbn beta iota. rewrite Hgr. cbn [rstart rend]. by rewrite Hidx, Hmu, erase_kind.
Qed.
Lemma rel_look_client env prog st os hs os' h s n p t' : henv_ok env -> Forall no_range prog ->
  s_run (map hide_op prog) s_init = SOk (st, os') -> @client W env prog = (Ok (hs, os), h) ->
  s_handles st !! s = Some (Some (@pair nat pos n p)) -> s_trees st !! n = Some (true, t') ->
  exists t x, t' = hide t /\ tsub t p = Some x /\
    @hstep W env (OLook s) hs h = (l ← rel_look t p x; Ok (hs, Some l), h).
Proof.
  intros Henv Hr E Ec. destruct (g_client env prog hs os h Hr Ec) as [_ HG0]. unfold client in Ec.
  assert (Hs : simulates s_init (bhs h_init) (bh (HP ∅ [] 0))).
  { assert (bh (HP ∅ [] 0) = HP ∅ [] 0) as -> by (unfold bh; simpl; by rewrite fmap_empty). apply simulates_init. }
  pose proof (r_run env Henv prog s_init h_init (HP ∅ [] 0) Hr mute_init Hs ltac:(by rewrite E)) as H. rewrite Ec in H.
  destruct H as (st'&H1&H2&H3). rewrite E in H1. injection H1 as <- ->. by apply rel_look_sim.
Qed.
