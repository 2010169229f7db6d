(** * Release builds: they do what debug builds do unless a debug build panics (proofs only). *)
From Verif Require Export Show.

(** the outcomes of a call in a debug and in a release build; proof device *)
Definition same {A} (d r : res A * heap) : Prop := r = d \/ d.1 = Err Panic.
(** proof device, no counterpart in the code *)
Definition agree {A} (d r : hm A) : Prop := forall h, same (d h) (r h).
(** proof device, no counterpart in the code *)
Definition ragree {A} (d r : res A) : Prop := r = d \/ d = Err Panic.

Lemma agree_refl {A} (m : hm A) : agree m m.
Proof. intros h. by left. Qed.
Lemma agree_bind {A B} (d r : hm A) (f g : A -> hm B) :
  agree d r -> (forall a, agree (f a) (g a)) -> agree (d ≫= f) (r ≫= g).
Proof.
  intros H Hf h. unfold mbind, hm_bind. destruct (H h) as [->|E].
  - destruct (d h) as [[a|e] h']; [apply Hf|by left].
  - destruct (d h) as [[a|e] h']; [done|]. right. simpl in *. by injection E as ->.
Qed.
Lemma ragree_bind {A B} (d r : res A) (f g : A -> res B) :
  ragree d r -> (forall a, ragree (f a) (g a)) -> ragree (d ≫= f) (r ≫= g).
Proof. intros [->| ->] Hf; [|by right]. destruct d; [apply Hf|by left]. Qed.
Lemma agree_lift {A} (d r : res A) : ragree d r -> agree (lift d) (lift r).
Proof. intros [->| ->] h; [by left|by right]. Qed.
Lemma agree_debug b : agree (@hdebug Checked b) (@hdebug Wrapping b).
Proof. intros h. destruct b; [by left|by right]. Qed.
Lemma agree_any {A} (m : hm A) : agree hpanic m.
Proof. intros h. by right. Qed.
Lemma ragree_refl {A} (r : res A) : ragree r r.
Proof. by left. Qed.
Lemma ragree_add32 a b : ragree (add32 Checked a b) (add32 Wrapping a b).
Proof. unfold add32. destruct (_ <=? _)%N; [by left|by right]. Qed.
Lemma ragree_range_end a b : ragree (range_end Checked a b) (range_end Wrapping a b).
Proof.
  unfold range_end, add32. destruct (_ <=? _)%N; [|by right]. left. simpl. destruct (N.leb_spec a (a + b)); [done|lia].
Qed.
Lemma ragree_assign els : forall o, ragree (assign_offsets Checked o els) (assign_offsets Wrapping o els).
Proof.
  induction els as [|el els IH]; intros o; cbn [assign_offsets]; [apply ragree_refl|].
  apply ragree_bind; [apply ragree_refl|]. intros l. apply ragree_bind; [apply ragree_add32|]. intros t.
  apply ragree_bind; [apply IH|]. intros [cs n]. apply ragree_refl.
Qed.
Lemma ragree_new a k els : ragree (green_new Checked a k els) (green_new Wrapping a k els).
Proof. apply ragree_bind; [apply ragree_assign|]. intros [cs n]. apply ragree_refl. Qed.
Lemma ragree_splice a g lo hi els : ragree (green_splice_children Checked a g lo hi els) (green_splice_children Wrapping a g lo hi els).
Proof. apply ragree_bind; [apply ragree_refl|]. intros cs. apply ragree_new. Qed.
Lemma agree_build env f f' used : (forall a, ragree (f a) (f' a)) -> agree (h_green_build env f used) (h_green_build env f' used).
Proof.
  intros H h. unfold h_green_build. destruct (match used with Some u => _ | None => _ end) as [o|]; [|by left].
  destruct (H (galloc env (ck h) (live_addrs (ow h)))) as [->| ->]; [by left|by right].
Qed.
Lemma ragree_delta k d : ragree (@add_delta Checked k d) (@add_delta Wrapping k d).
Proof. destruct d as [n|n]; [by left|]. simpl. destruct (n <=? k); [by left|by right]. Qed.

Create HintDb agree.
Ltac ag1 := lazymatch goal with
  | |- agree ?m ?m => apply agree_refl
  | |- agree (_ ≫= _) (_ ≫= _) => apply agree_bind; [|intros ?]
  | |- agree (match ?x with _ => _ end) _ => destruct x
  | |- agree (let '(_, _) := ?x in _) _ => destruct x
  | |- agree hpanic _ => apply agree_any
  | |- agree (lift _) (lift _) => apply agree_lift
  | |- ragree ?m ?m => apply ragree_refl
  | |- ragree (add32 _ _ _) _ => apply ragree_add32
  | |- ragree (range_end _ _ _) _ => apply ragree_range_end
  | |- ragree (add_delta _ _) _ => apply ragree_delta
  | |- ragree (green_new _ _ _ _) _ => apply ragree_new
  | |- ragree (green_replace_child _ _ _ _ _) _ => apply ragree_new
  | |- ragree (green_insert_child _ _ _ _ _) _ => apply ragree_splice
  | |- ragree (green_remove_child _ _ _ _) _ => apply ragree_splice
  | |- ragree (green_splice_children _ _ _ _ _ _) _ => apply ragree_splice
  | |- agree (hdebug _) _ => apply agree_debug
  | |- agree (h_green_build _ _ _) _ => apply agree_build; intros ?
  | |- agree _ _ => solve [auto with agree nocore]
  end.
Ltac ag := repeat ag1.
Tactic Notation "agree" "by" ident(f) := intros; unfold f; ag.
Notation "D ⊑ F" := (agree D F) (at level 70, only parsing).

(** ** Heap.v, in the order of that file *)
Lemma a_unlink x e : agree (@h_unlink Checked x e) (@h_unlink Wrapping x e).
Proof. unfold h_unlink. ag. Qed.
Global Hint Resolve a_unlink : agree.
Lemma a_adjust_loop fuel e : forall c from d, agree (@h_adjust_loop Checked fuel e c from d) (@h_adjust_loop Wrapping fuel e c from d).
Proof. induction fuel as [|fuel IH]; intros c from d; cbn [h_adjust_loop]; ag. Qed.
Global Hint Resolve a_adjust_loop : agree.
Lemma a_adjust e from d : agree (@h_adjust Checked e from d) (@h_adjust Wrapping e from d).
Proof. unfold h_adjust. ag. Qed.
Global Hint Resolve a_adjust : agree.
Lemma a_dec p : agree (@h_dec_rc Checked p) (@h_dec_rc Wrapping p).
Proof. unfold h_dec_rc. ag. Qed.
Global Hint Resolve a_dec : agree.
Lemma a_free_loop fuel : forall p, agree (@h_free_loop Checked fuel p) (@h_free_loop Wrapping fuel p).
Proof. induction fuel as [|fuel IH]; intros p; cbn [h_free_loop]; ag. Qed.
Global Hint Resolve a_free_loop : agree.
Lemma a_free p : agree (@h_free Checked p) (@h_free Wrapping p).
Proof. unfold h_free. ag. Qed.
Global Hint Resolve a_free : agree.
Lemma a_drop p : agree (@h_drop Checked p) (@h_drop Wrapping p).
Proof. unfold h_drop. ag. Qed.
Global Hint Resolve a_drop : agree.
Lemma a_drop_opt p : agree (@h_drop_opt Checked p) (@h_drop_opt Wrapping p).
Proof. unfold h_drop_opt. ag. Qed.
Global Hint Resolve a_drop_opt : agree.
Section env.
Context (env : henv).
Lemma a_new q i o g m : agree (@h_new Checked env q i o g m) (@h_new Wrapping env q i o g m).
Proof. unfold h_new. ag. Qed.
Hint Resolve a_new : agree.
Lemma a_offset_loop fuel : forall p acc, agree (@h_offset_mut_loop Checked fuel p acc) (@h_offset_mut_loop Wrapping fuel p acc).
Proof. induction fuel as [|fuel IH]; intros p acc; cbn [h_offset_mut_loop]; ag. Qed.
Hint Resolve a_offset_loop : agree.
Lemma a_offset p : agree (@h_offset Checked p) (@h_offset Wrapping p).
Proof. unfold h_offset. ag. Qed.
Hint Resolve a_offset : agree.
Lemma a_text_range p : agree (@h_text_range Checked p) (@h_text_range Wrapping p).
Proof. unfold h_text_range. ag. Qed.
Hint Resolve a_text_range : agree.
Lemma a_eq p q : agree (@h_eq Checked p q) (@h_eq Wrapping p q).
Proof. unfold h_eq. ag. Qed.
Hint Resolve a_eq : agree.
Lemma a_siblings p : agree (@h_green_siblings Checked p) (@h_green_siblings Wrapping p).
Proof. unfold h_green_siblings. ag. Qed.
Hint Resolve a_siblings : agree.
Lemma a_parent p : agree (@h_parent Checked p) (@h_parent Wrapping p).
Proof. unfold h_parent. ag. Qed.
Hint Resolve a_parent : agree.
Lemma a_new_root g : agree (@h_new_root Checked env g) (@h_new_root Wrapping env g).
Proof. unfold h_new_root. ag. Qed.
Hint Resolve a_new_root : agree.
Lemma a_new_root_mut g : agree (@h_new_root_mut Checked env g) (@h_new_root_mut Wrapping env g).
Proof. unfold h_new_root_mut. ag. Qed.
Hint Resolve a_new_root_mut : agree.
Lemma a_mk_child q ic : agree (@h_mk_child Checked env q ic) (@h_mk_child Wrapping env q ic).
Proof. unfold h_mk_child. ag. Qed.
Hint Resolve a_mk_child : agree.
Lemma a_child_opt sel p : agree (@h_child_opt Checked env sel p) (@h_child_opt Wrapping env sel p).
Proof. unfold h_child_opt. ag. Qed.
Hint Resolve a_child_opt : agree.
Lemma a_sibling_opt sel p : agree (@h_sibling_opt Checked env sel p) (@h_sibling_opt Wrapping env sel p).
Proof. unfold h_sibling_opt. ag. Qed.
Hint Resolve a_sibling_opt : agree.
Lemma a_at_range p r : agree (@h_child_or_token_at_range Checked env p r) (@h_child_or_token_at_range Wrapping env p r).
Proof. unfold h_child_or_token_at_range. ag. Qed.
Hint Resolve a_at_range : agree.
Lemma a_to_next slow slow' sel p : (forall x, agree (slow x) (slow' x)) -> agree (@h_to_next Checked env slow sel p) (@h_to_next Wrapping env slow' sel p).
Proof. intros H. unfold h_to_next. ag. Qed.
Lemma a_to_next_sibling p : agree (@h_to_next_sibling Checked env p) (@h_to_next_sibling Wrapping env p).
Proof. apply a_to_next. intros x. apply a_sibling_opt. Qed.
Lemma a_to_next_sibling_or_token p : agree (@h_to_next_sibling_or_token Checked env p) (@h_to_next_sibling_or_token Wrapping env p).
Proof. apply a_to_next. intros x. apply a_sibling_opt. Qed.
Hint Resolve a_to_next_sibling a_to_next_sibling_or_token : agree.
Lemma a_cfu_loop fuel : forall p, agree (@h_clone_for_update_loop Checked env fuel p) (@h_clone_for_update_loop Wrapping env fuel p).
Proof. induction fuel as [|fuel IH]; intros p; cbn [h_clone_for_update_loop]; ag. Qed.
Hint Resolve a_cfu_loop : agree.
Lemma a_cfu p : agree (@h_clone_for_update Checked env p) (@h_clone_for_update Wrapping env p).
Proof. unfold h_clone_for_update. ag. Qed.
Lemma a_subtree p : agree (@h_clone_subtree Checked env p) (@h_clone_subtree Wrapping env p).
Proof. unfold h_clone_subtree. ag. Qed.
Hint Resolve a_cfu a_subtree : agree.
Lemma a_respine_loop fuel : forall p g, agree (@h_respine_loop Checked env fuel p g) (@h_respine_loop Wrapping env fuel p g).
Proof. induction fuel as [|fuel IH]; intros p g; cbn [h_respine_loop]; ag. Qed.
Hint Resolve a_respine_loop : agree.
Lemma a_respine p g : agree (@h_respine Checked env p g) (@h_respine Wrapping env p g).
Proof. unfold h_respine. ag. Qed.
Hint Resolve a_respine : agree.
Lemma a_detach p : agree (@h_detach Checked env p) (@h_detach Wrapping env p).
Proof. unfold h_detach. ag. Qed.
Hint Resolve a_detach : agree.
Lemma a_attach_data p i c : agree (@h_attach_data Checked env p i c) (@h_attach_data Wrapping env p i c).
Proof. unfold h_attach_data, h_attach_with. ag. Qed.
Hint Resolve a_attach_data : agree.
Lemma a_attach_child p i c : agree (@h_attach_child Checked env p i c) (@h_attach_child Wrapping env p i c).
Proof. unfold h_attach_child. ag. Qed.
Hint Resolve a_attach_child : agree.
Lemma a_first_child_or_token p : agree (@h_first_child_or_token Checked env p) (@h_first_child_or_token Wrapping env p).
Proof. apply a_child_opt. Qed.
Lemma a_first_child p : agree (@h_first_child Checked env p) (@h_first_child Wrapping env p).
Proof. apply a_child_opt. Qed.
Hint Resolve a_first_child_or_token a_first_child : agree.
Lemma a_element_next it : agree (@h_element_children_next Checked env it) (@h_element_children_next Wrapping env it).
Proof. unfold h_element_children_next. ag. Qed.
Lemma a_node_next it : agree (@h_node_children_next Checked env it) (@h_node_children_next Wrapping env it).
Proof. unfold h_node_children_next. ag. Qed.
Lemma a_children_drop it : agree (@h_children_drop Checked it) (@h_children_drop Wrapping it).
Proof. unfold h_children_drop. ag. Qed.
Hint Resolve a_element_next a_node_next a_children_drop : agree.
Lemma a_detach_loop next next' sel fuel : (forall it, agree (next it) (next' it)) ->
  forall i it, agree (@h_detach_loop Checked env next sel fuel i it) (@h_detach_loop Wrapping env next' sel fuel i it).
Proof. intros H. induction fuel as [|fuel IH]; intros i it; cbn [h_detach_loop]; ag. Qed.
Lemma a_attach_all p l : forall i, agree (@h_attach_all Checked env p i l) (@h_attach_all Wrapping env p i l).
Proof. induction l as [|c l IH]; intros i; cbn [h_attach_all]; ag. Qed.
Hint Resolve a_attach_all : agree.
Lemma a_splice p s e l : agree (@h_splice_children Checked env p s e l) (@h_splice_children Wrapping env p s e l).
Proof.
  unfold h_splice_children. do 4 (apply agree_bind; [ag|intros ?]). apply agree_bind; [|intros ?; ag].
  apply a_detach_loop. intros it. ag.
Qed.
Hint Resolve a_splice : agree.

(** ** Clients *)
Lemma a_look p : agree (@h_look Checked p) (@h_look Wrapping p).
Proof. unfold h_look. ag. Qed.
Lemma a_nav n p : agree (@h_nav Checked env n p) (@h_nav Wrapping env n p).
Proof. destruct n; cbn [h_nav]; first [apply agree_refl | apply a_parent | apply a_child_opt | apply a_sibling_opt]. Qed.
Lemma a_to_next_any tok p : agree (@h_to_next_any env Checked tok p) (@h_to_next_any env Wrapping tok p).
Proof. unfold h_to_next_any. ag. Qed.
Lemma a_kids_next tok it : agree (@h_kids_next env Checked tok it) (@h_kids_next env Wrapping tok it).
Proof. unfold h_kids_next. ag. Qed.
Hint Resolve a_look a_nav a_to_next_any a_kids_next : agree.
Lemma a_by_kind_new tok m p : agree (@h_by_kind_new env Checked tok m p) (@h_by_kind_new env Wrapping tok m p).
Proof. unfold h_by_kind_new. ag. Qed.
Lemma a_by_kind_next tok m x : agree (@h_by_kind_next env Checked tok m x) (@h_by_kind_next env Wrapping tok m x).
Proof. unfold h_by_kind_next. ag. Qed.
Hint Resolve a_by_kind_new a_by_kind_next : agree.
Lemma a_by_kind_loop tok m fuel : forall x, agree (@h_by_kind_detach_loop env Checked tok m fuel x) (@h_by_kind_detach_loop env Wrapping tok m fuel x).
Proof. induction fuel as [|fuel IH]; intros x; cbn [h_by_kind_detach_loop]; ag. Qed.
Hint Resolve a_by_kind_loop : agree.
Lemma a_step o hs : agree (@hstep Checked env o hs) (@hstep Wrapping env o hs).
Proof.
  destruct o; cbn [hstep]; ag.
  apply a_detach_loop. intros it. ag.
Qed.
Hint Resolve a_step : agree.
Lemma a_run prog : forall hs, agree (@hrun Checked env prog hs) (@hrun Wrapping env prog hs).
Proof. induction prog as [|o prog IH]; intros hs; cbn [hrun]; ag. Qed.
Lemma a_exec {A} (p : script A) : forall hs, agree (@hexec Checked env A p hs) (@hexec Wrapping env A p hs).
Proof. induction p as [a| | |o k IH|a b k IH]; intros hs; cbn [hexec]; ag. Qed.
End env.

(** ** Programs that compute with text sizes themselves *)
(** proof device, no counterpart in the code *)
Inductive sagree {A} : script A -> script A -> Prop :=
| sg_ret a : sagree (PRet a) (PRet a)
| sg_panic q : sagree PPanic q
| sg_diverge : sagree PDiverge PDiverge
| sg_op o k k' : (forall x, sagree (k x) (k' x)) -> sagree (POp o k) (POp o k')
| sg_eq a b k k' : (forall x, sagree (k x) (k' x)) -> sagree (PEq a b k) (PEq a b k').
Lemma sagree_refl {A} (p : script A) : sagree p p.
Proof. induction p; by constructor. Qed.
Lemma sagree_bind {A B} (p p' : script A) (f f' : A -> script B) : sagree p p' -> (forall a, sagree (f a) (f' a)) -> sagree (p ≫= f) (p' ≫= f').
Proof.
  intros H Hf. unfold mbind, script_mbind. induction H as [a|q| |o k k' _ IH|a b k k' _ IH]; cbn [script_bind]; [apply Hf|constructor|constructor|by constructor|by constructor].
Qed.
Lemma sagree_lift {A} (d r : res A) : ragree d r -> sagree (p_lift d) (p_lift r).
Proof. intros [->| ->]; [apply sagree_refl|constructor]. Qed.
Lemma a_exec2 env {A} (p p' : script A) : sagree p p' -> forall hs, agree (@hexec Checked env A p hs) (@hexec Wrapping env A p' hs).
Proof.
  induction 1 as [a|q| |o k k' _ IH|a b k k' _ IH]; intros hs; cbn [hexec]; try (by apply agree_refl || by apply agree_any).
  - apply agree_bind; [apply a_step|]. intros [hs' x]. apply IH.
  - apply agree_bind; [apply agree_refl|]. intros x. apply agree_bind; [apply agree_refl|]. intros y. apply agree_bind; [apply a_eq|]. intros r. apply IH.
Qed.
Ltac sg1 := lazymatch goal with
  | |- sagree ?m ?m => apply sagree_refl
  | |- sagree (_ ≫= _) (_ ≫= _) => apply sagree_bind; [|intros ?]
  | |- sagree (match ?x with _ => _ end) _ => destruct x
  | |- sagree (p_lift _) _ => apply sagree_lift
  | |- ragree ?m ?m => apply ragree_refl
  | |- ragree (_ ≫= _) (_ ≫= _) => apply ragree_bind; [|intros ?]
  | |- ragree (add32 _ _ _) _ => apply ragree_add32
  | |- ragree (match ?x with _ => _ end) _ => destruct x
  end.
Ltac sg := repeat sg1.
Lemma sg_fold {T E} (f f' : T -> str -> res (T + E)) r nx fuel : (forall a c, ragree (f a c) (f' a c)) ->
  forall w acc, sagree (p_try_fold f r nx fuel w acc) (p_try_fold f' r nx fuel w acc).
Proof. intros H. induction fuel as [|fuel IH]; intros w acc; cbn [p_try_fold]; sg; [apply H|apply IH]. Qed.
Lemma sg_find_char fuel t c : sagree (@p_find_char Checked fuel t c) (@p_find_char Wrapping fuel t c).
Proof. unfold p_find_char, p_try_fold_chunks. apply sagree_bind; [|intros ?; sg]. apply sagree_bind; [sg|]. intros w. apply sg_fold. intros a ch. sg. Qed.
Lemma sg_char_at fuel t o : sagree (@p_char_at Checked fuel t o) (@p_char_at Wrapping fuel t o).
Proof. unfold p_char_at, p_try_fold_chunks. apply sagree_bind; [|intros ?; sg]. apply sagree_bind; [sg|]. intros w. apply sg_fold. intros a ch. sg. Qed.
Lemma sg_zip rx ry nx fuel : forall x xs y ys, sagree (@p_zip_loop Checked rx ry nx fuel x xs y ys) (@p_zip_loop Wrapping rx ry nx fuel x xs y ys).
Proof. induction fuel as [|fuel IH]; intros x xs y ys; cbn [p_zip_loop]; sg. apply IH. Qed.
Lemma sg_text_eq fuel t1 t2 : sagree (@p_text_eq Checked fuel t1 t2) (@p_text_eq Wrapping fuel t1 t2).
Proof.
  unfold p_text_eq, p_zip_texts. sg. apply sg_zip.
Qed.
Lemma ragree_i32 a b : ragree (add_i32 Checked a b) (add_i32 Wrapping a b).
Proof. unfold add_i32. destruct (_ && _); [by left|by right]. Qed.
Lemma sg_slice t rs re : sagree (p_slice Checked t rs re) (p_slice Wrapping t rs re).
Proof. unfold p_slice. sg. Qed.
Lemma sg_fmt_loop sink kfr kdbg sdbg fuel : forall w level out,
  sagree (p_fmt_loop Checked sink kfr kdbg sdbg fuel w level out) (p_fmt_loop Wrapping sink kfr kdbg sdbg fuel w level out).
Proof. induction fuel as [|fuel IH]; intros w level out; cbn [p_fmt_loop]; sg; first [apply ragree_i32|apply IH]. Qed.
Lemma sg_debug sink kfr kdbg sdbg alt fuel s out :
  sagree (p_debug Checked sink kfr kdbg sdbg alt fuel s out) (p_debug Wrapping sink kfr kdbg sdbg alt fuel s out).
Proof. unfold p_debug. sg. apply sg_fmt_loop. Qed.

(** ** When a debug build panics because the text gets too long *)
Lemma step_overflow env st hs h k els ts : henv_ok env -> simulates st hs h -> mapM (fun g => mjoin (s_greens st !! g)) els = Some ts ->
  (u32_max < blen (ttext (Node k ts)))%N ->
  exists g h', @hstep Wrapping env (OGreenNode k els) hs h = (Ok (hgadd g hs, None), h') /\ g_live h' g = true /\ gkind g = k /\
    green_text_len g = Ok (blen (ttext (Node k ts)) mod 2 ^ 32)%N /\ erase g = Node k ts.
Proof.
  intros Henv (zs&lk&Hsim) Hts Hbig. pose proof (sm_sim _ _ _ _ _ _ Hsim) as HS. cbn [app] in HS.
  destruct (mapM_green _ _ _ _ _ _ _ Hsim Hts) as (gs&Egs&<-&HF).
  assert (Hwf : Forall wfg gs). { pose proof (greens_wfg _ _ _ _ HS) as HG. eapply Forall_impl; [exact HF|]. intros g Hg. rewrite Forall_forall in HG. auto. }
  assert (Etext : ttext (Node k (map erase gs)) = gctext gs). { rewrite gctext_ctext. by rewrite ttext_node. }
  cbn [hstep]. rewrite Egs. unfold mbind, hm_bind, h_green_build, mret, hm_ret.
  destruct (green_new_wraps (galloc env (ck h) (live_addrs (ow h))) k gs Hwf) as (cs&E&Hcs). rewrite E.
  eexists _, _. split; [done|]. split_and!; [|done|by rewrite Etext|].
  - unfold g_live. apply bool_decide_eq_true. simpl. left.
  - simpl. f_equal. rewrite <- Hcs, map_map. done.
Qed.
Lemma hrun_app_in {bld : build} env p1 p2 hs h : hrun env (p1 ++ p2) hs h = ('(hs, xs) ← hrun env p1 hs; '(hs, ys) ← hrun env p2 hs; mret (hs, xs ++ ys)) h.
Proof.
  revert hs h. induction p1 as [|o p1 IH]; intros hs h; cbn [app hrun]; unfold mret, hm_ret, mbind, hm_bind.
  - by destruct (hrun env p2 hs h) as [[[]|] ?].
  - destruct (hstep env o hs h) as [[[hs1 x]|] h1]; [|done]. rewrite IH. unfold mret, hm_ret, mbind, hm_bind.
    destruct (hrun env p1 hs1 h1) as [[[hs2 xs]|] h2]; [|done]. by destruct (hrun env p2 hs2 h2) as [[[]|] ?].
Qed.

(** ** A text of 2^32 bytes *)
(** example: a token of one byte, doubled [n] times *)
Definition doubled (n : nat) : list op := OGreenToken 0%N [97%N] :: map (fun i => OGreenNode 0%N [i; i]) (seq 0 n).
(** example *)
Fixpoint dtree (n : nat) : tree := match n with 0 => Token 0%N [97%N] | S n => Node 0%N [dtree n; dtree n] end.
Lemma dtree_len n : blen (ttext (dtree n)) = (2 ^ N.of_nat n)%N.
Proof.
  induction n as [|n IH]; [done|]. cbn [dtree]. rewrite Nat2N.inj_succ, N.pow_succ_r', <- IH, ttext_node.
  unfold ctext. cbn [map concat]. rewrite app_nil_r, blen_app. lia.
Qed.
Lemma doubled_step st n : n < 31 -> s_greens st !! n = Some (Some (dtree n)) -> s_step (OGreenNode 0%N [n; n]) st = SOk (add_green (dtree (S n)) st, None).
Proof.
  intros Hn Hl. cbn [s_step]. assert (E : mapM (fun g => mjoin (s_greens st !! g)) [n; n] = Some [dtree n; dtree n]) by (cbn; by rewrite !Hl).
  rewrite E. change (Node 0 [dtree n; dtree n]) with (dtree (S n)). rewrite dtree_len. unfold panic_unless.
  replace (2 ^ N.of_nat (S n) <=? u32_max)%N with true; [done|]. symmetry. apply N.leb_le.
  transitivity (2 ^ 31)%N; [|done]. apply N.pow_le_mono_r; [done|lia].
Qed.
Lemma doubled_run n : n <= 31 -> s_run (doubled n) s_init = SOk (SS [] [] (map (fun i => Some (dtree i)) (seq 0 (S n))) [], replicate (S n) None).
Proof.
  induction n as [|n IH]; intros Hn; [done|]. unfold doubled. rewrite seq_S, map_app, app_comm_cons. fold (doubled n).
  rewrite s_run_app, IH by lia. clear IH. set (st := SS _ _ _ _). cbn [mbind sres_bind map s_run Nat.add].
  rewrite doubled_step; [|lia|].
  2: { unfold st. cbn [s_greens]. rewrite (list_lookup_fmap (fun i => Some (dtree i))), lookup_seq_lt by lia. done. }
  cbn [mbind sres_bind]. unfold add_green, st. cbn [s_trees s_handles s_greens s_leaked].
  rewrite (seq_S (S n) 0), map_app, (replicate_S_end (S n)). done.
Qed.
