(** * The compound methods do on any tree what layer 4 does on immutable trees *)
From Verif Require Export Compound.

Lemma res_bind_ret {A} (r : res A) : (r ≫= Ok) = r.
Proof. by destruct r. Qed.
Lemma res_fmap_bind {A B} (f : A -> B) (r : res A) : f <$> r = (r ≫= fun a => Ok (f a)).
Proof. by destruct r. Qed.
Lemma res_bind_assoc {A B C} (r : res A) (f : A -> res B) (g : B -> res C) : ((r ≫= f) ≫= g) = (r ≫= fun a => f a ≫= g).
Proof. by destruct r. Qed.
Lemma swp_bind_ret {A} (p : script A) E Q st : swp (p ≫= PRet) E Q st -> swp p E Q st.
Proof.
  revert st. induction p as [a| | |o k IH|a b k IH]; intros st H; try exact H.
  - change (swp (POp o (fun x => k x ≫= PRet)) E Q st) in H. cbn [swp] in *. destruct (s_step o st) as [[st' x]| | |]; auto.
  - change (swp (PEq a b (fun x => k x ≫= PRet)) E Q st) in H. cbn [swp] in *.
    destruct H as (ha&hb&la&lb&H1&H2&H3&H4&H5). exists ha, hb, la, lb. split_and!; auto.
Qed.

Lemma swp_assoc {A B C} (p : script A) (k : A -> script B) (k' : B -> script C) E Q st : swp (p ≫= fun a => k a ≫= k') E Q st -> swp ((p ≫= k) ≫= k') E Q st.
Proof.
  revert st. induction p as [a| | |o q IH|a b q IH]; intros st H; try exact H.
  - change (swp (POp o (fun x => q x ≫= fun a => k a ≫= k')) E Q st) in H. change (swp (POp o (fun x => (q x ≫= k) ≫= k')) E Q st).
    cbn [swp] in *. destruct (s_step o st) as [[st' x]| | |]; auto.
  - change (swp (PEq a b (fun x => q x ≫= fun a => k a ≫= k')) E Q st) in H. change (swp (PEq a b (fun x => (q x ≫= k) ≫= k')) E Q st).
    cbn [swp] in *. destruct H as (ha&hb&la&lb&H1&H2&H3&H4&H5). exists ha, hb, la, lb. split_and!; auto.
Qed.

(** ** Shape of the answers *)
(** proof device, no counterpart in the code *)
Definition node_nav (nv : nav) : bool :=
  match nv with
  | NParent | NFirstChild | NLastChild | NFirstChildByKind _ | NNextSibling | NPrevSibling | NNextSiblingByKind _ => true
  | _ => false
  end.
Lemma app_snoc_ne {A} (l : list A) x : l ++ [x] <> [].
Proof. by destruct l. Qed.
Lemma mk_child_opt_inv c o d : mk_child_opt c o = Ok (Some d) -> exists ic, o = Some ic /\ c_green d = ic.2.2 /\ c_path d = c_path c ++ [ic.1].
Proof.
  unfold mk_child_opt. destruct o as [ic|]; [|done]. unfold mk_child. destruct (add32 _ _ _); simpl; [|done]. intros [= <-]. by exists ic.
Qed.
Lemma mk_sibling_opt_inv c o d : mk_sibling_opt c o = Ok (Some d) ->
  exists ic p, o = Some ic /\ c_green d = ic.2.2 /\ c_parent c = Some p /\ c_path d = c_path p ++ [ic.1].
Proof.
  unfold mk_sibling_opt. destruct o as [ic|]; [|done]. destruct (c_parent c) as [p|]; [|done]. unfold mk_child. destruct (add32 _ _ _); simpl; [|done].
  intros [= <-]. by exists ic, p.
Qed.
Lemma find_map_sel f P l ic : selects f P -> find_map f l = Some ic -> P ic.2.2 = true.
Proof.
  intros Hs. induction l as [|x l IH]; simpl; [done|]. rewrite Hs. destruct (P x.2.2) eqn:E; [|exact IH]. by intros [= <-].
Qed.
Lemma sel_node_kind_node f l ic : find_map (sel_node_kind f) l = Some ic -> gis_node ic.2.2 = true.
Proof. intros H. apply (find_map_sel _ _ _ _ (sel_node_kind_selects f)) in H. cbv beta in H. by apply andb_prop in H as [? ?]. Qed.
(** proof device, no counterpart in the code *)
Definition down_nav (nv : nav) : bool :=
  match nv with
  | NFirstChild | NLastChild | NFirstChildByKind _ | NFirstChildOrToken | NLastChildOrToken | NFirstChildOrTokenByKind _ => true
  | _ => false
  end.
Lemma nav_path nv c d : c_nav nv c = Ok (Some d) ->
  match nv with
  | NParent => c_parent c = Some d
  | _ => exists p i, (if down_nav nv then p = c else c_parent c = Some p) /\ c_path d = c_path p ++ [i]
  end.
Proof.
  intros H. destruct nv; simpl in H; cbn [down_nav];
    try (apply mk_child_opt_inv in H as (ic&_&_&?); by exists c, ic.1); try (by apply mk_sibling_opt_inv in H as (ic&p&_&_&?&?); exists p, ic.1).
  - by injection H as ->.
  - unfold prev_sibling in H. cbv zeta in H. destruct (_ <? _); [done|]. by apply mk_sibling_opt_inv in H as (ic&p&_&_&?&?); exists p, ic.1.
  - unfold prev_sibling_or_token in H. destruct (c_index c); [done|]. by apply mk_sibling_opt_inv in H as (ic&p&_&_&?&?); exists p, ic.1.
Qed.
Lemma nav_inv nv c d : c_nav nv c = Ok (Some d) -> nv <> NParent -> c_path d <> [].
Proof.
  intros H%nav_path Hn. destruct nv; try done; destruct H as (p&i&_&->); apply app_snoc_ne.
Qed.
Lemma nav_node root nv c d : cin root c -> c_nav nv c = Ok (Some d) -> node_nav nv = true -> c_is_node d = true.
Proof.
  intros Hc H Hn. unfold c_is_node. destruct nv; try done; simpl in H.
  - destruct c as [|c0 i off g]; [done|]. simpl in H. injection H as <-. destruct (cin_child_inv _ _ _ _ _ Hc) as (_&ch&Hch&_). by destruct (c_green c0).
  - apply mk_child_opt_inv in H as (ic&H&->&_). by apply (find_map_sel _ _ _ _ sel_node_selects) in H.
  - apply mk_child_opt_inv in H as (ic&H&->&_). by apply (find_map_sel _ _ _ _ sel_node_selects) in H.
  - apply mk_child_opt_inv in H as (ic&H&->&_). by apply sel_node_kind_node in H.
  - apply mk_sibling_opt_inv in H as (ic&p&H&->&_). by apply (find_map_sel _ _ _ _ sel_node_selects) in H.
  - unfold prev_sibling in H. cbv zeta in H. destruct (_ <? _); [done|]. apply mk_sibling_opt_inv in H as (ic&p&H&->&_). by apply (find_map_sel _ _ _ _ sel_node_selects) in H.
  - apply mk_sibling_opt_inv in H as (ic&p&H&->&_). by apply sel_node_kind_node in H.
Qed.

Section facts.
Context (T : list (bool * tree)) (G : list (option tree)) (K : list nat).
Context (n : nat) (m : bool) (root : green) (HT : T !! n = Some (m, erase root)) (Hwf : wfg root) (Hco : coherent root).
Local Notation tr := (tracks T G K).
Local Notation own c s := (s, (n, c_path c)).
Local Notation look_of := (look_of m root).
(** the element is a child; a node unless [tok] *)
Definition Rk (tok : bool) (c : cursor) (s : nat) (F : rs) : Prop := Rc n root c s F /\ c_path c <> [] /\ (tok = false -> c_is_node c = true).
(** a node unless [tok] *)
Definition Rn (tok : bool) (c : cursor) (s : nat) (F : rs) : Prop := Rc n root c s F /\ (tok = false -> c_is_node c = true).
(** [F0] is kept, the result owns the rest *)
Definition kept {A B} (F0 : rs) (R : B -> A -> rs -> Prop) (b : B) (a : A) (F : rs) : Prop := exists F1, F ≡ₚ F1 ++ F0 /\ R b a F1.

Lemma Ropt_mono {A B} (R R' : A -> B -> rs -> Prop) o a F : Ropt R o a F -> (forall x y, o = Some x -> a = Some y -> R x y F -> R' x y F) -> Ropt R' o a F.
Proof. unfold Ropt. destruct o, a; auto. Qed.
Lemma tr_bind_ret {A B} F (p : script A) (r : res B) R : tr F (p ≫= PRet) r R -> tr F p r R.
Proof. intros H H1 H2 L st Hh. apply swp_bind_ret. by apply H. Qed.
Lemma tr_assoc {A B C D} F (p : script A) (k : A -> script B) (k' : B -> script C) (r : res D) R : tr F (p ≫= fun a => k a ≫= k') r R -> tr F ((p ≫= k) ≫= k') r R.
Proof. intros H H1 H2 L st Hh. apply swp_assoc. by apply H. Qed.
Lemma tr_eqn {A B} F (p : script A) (r : res B) R : tr F p r R -> tr F p r (fun b a F' => r = Ok b /\ R b a F').
Proof.
  intros H H1 H2 L st Hh. eapply swp_mono; [by apply (H H1 H2 L)|auto|]. intros a st' (b&F'&E&HR&Hh'). exists b, F'. auto.
Qed.
Lemma tr_nav1 F nv s c : cin root c -> own c s ∈ F -> (nav_on_node nv = true -> c_is_node c = true) ->
  tr F (p_nav nv s) (c_nav nv c) (fun o a F' => kept F (Ropt (Rc n root)) o a F' /\ c_nav nv c = Ok o).
Proof using HT Hwf.
  intros Hc Hin Hn. apply tr_bind_ret. rewrite <- (res_bind_ret (c_nav nv c)). eapply tr_nav; [done|done|done|done|done|].
  intros o a Fo HR Ho. eapply tr_ret; [done|]. split; [by exists Fo|]. by rewrite res_bind_ret.
Qed.
Lemma tr_drop1 F F0 s h (R : unit -> unit -> rs -> Prop) : F ≡ₚ (s, h) :: F0 -> R () () F0 -> tr F (p_drop s) (Ok ()) R.
Proof. intros HF HR. apply tr_bind_ret. eapply tr_drop; [exact HF|]. by eapply tr_ret. Qed.
Lemma tr_drop_opt {A B C} F F0 Fo (R : C -> nat -> rs -> Prop) o a (k : unit -> script A) (r : res B) S :
  (forall c s F, R c s F -> exists h, F = [(s, h)]) -> Ropt R o a Fo -> F ≡ₚ Fo ++ F0 -> tr F0 (k ()) r S -> tr F (p_drop_opt a ≫= k) r S.
Proof.
  intros Hone HR HF Hk. unfold Ropt in HR. destruct o as [c|], a as [s|]; try done.
  - destruct (Hone _ _ _ HR) as [h ->]. by eapply tr_drop.
  - subst Fo. eapply tracks_perm; [|exact Hk]. by symmetry.
Qed.
Lemma Rc_one c s F : Rc n root c s F -> exists h, F = [(s, h)].
Proof. intros [_ ->]. by eexists. Qed.
Lemma Rk_one tok c s F : Rk tok c s F -> exists h, F = [(s, h)].
Proof. intros [H _]. by eapply Rc_one. Qed.
Lemma Rn_one tok c s F : Rn tok c s F -> exists h, F = [(s, h)].
Proof. intros [H _]. by eapply Rc_one. Qed.

(** ** Collecting *)
(** proof device, no counterpart in the code *)
Fixpoint Rlist {A B} (R : B -> A -> rs -> Prop) (l : list B) (k : list A) (F : rs) : Prop :=
  match l, k with
  | [], [] => F = []
  | b :: l, a :: k => exists F1 F2, F ≡ₚ F1 ++ F2 /\ R b a F1 /\ Rlist R l k F2
  | _, _ => False
  end.
(** proof device, no counterpart in the code *)
Definition stepped {S S' A B} (Ri : B -> A -> rs -> Prop) (It : S' -> S -> rs -> Prop) (ob : option B * S') (oa : option A * S) (F : rs) : Prop :=
  exists F1 F2, F ≡ₚ F1 ++ F2 /\ Ropt Ri ob.1 oa.1 F1 /\ It ob.2 oa.2 F2.
Lemma tr_collect {S S' A B} (pn : p_iter S A) (pd : S -> script unit) (cn : iter S' B) (Ri : B -> A -> rs -> Prop) (It : S' -> S -> rs -> Prop) :
  (forall cit it F, It cit it F -> tr F (pn it) (cn cit) (stepped Ri It)) ->
  (forall cit it F, It cit it F -> tr F (pd it) (Ok ()) (fun _ _ F' => F' = [])) ->
  forall fuel cit it F, It cit it F -> tr F (p_collect pn pd fuel it) (collect cn fuel cit) (Rlist Ri).
Proof.
  intros Hn Hd. induction fuel as [|fuel IH]; intros cit it F Hit; [by apply tr_err|]. cbn [p_collect collect].
  eapply tr_call; [by apply Hn|by rewrite app_nil_r|]. intros [a it'] [b cit'] F' (F1&F2&HF&HR&Hit'). cbn [fst snd] in *. rewrite app_nil_r.
  unfold Ropt in HR. destruct b as [b|], a as [a|]; try done.
  - rewrite res_fmap_bind. eapply tr_call; [by apply IH|rewrite HF; apply Permutation_app_comm|]. intros l' l F3 Hl. eapply tr_ret; [|exists F1, F3; split_and!; [done|done|done]].
    apply Permutation_app_comm.
  - subst F1. change (Ok (@nil B)) with (Ok () ≫= fun _ : unit => Ok (@nil B)). eapply tr_call; [eapply Hd; exact Hit'|by rewrite app_nil_r|].
    intros [] [] F3 ->. by eapply tr_ret.
Qed.

(** ** Children *)
(** proof device, no counterpart in the code *)
Definition Rkids (tok : bool) (cit : children_iter) (it : kids) (F : rs) : Prop :=
  cin root (ci_parent cit) /\ c_is_node (ci_parent cit) = true /\ ki_init it = ci_init cit /\ (ci_init cit = false -> ci_next cit = None) /\
  exists Fo, F ≡ₚ own (ci_parent cit) (ki_parent it) :: Fo /\ Ropt (Rk tok) (ci_next cit) (ki_next it) Fo.
(** proof device, no counterpart in the code *)
Definition kids_next (tok : bool) : iter children_iter cursor := if tok then element_children_next else node_children_next.
Lemma nav_Rk tok nv c o a F : cin root c -> c_nav nv c = Ok o -> nv <> NParent -> (tok = false -> node_nav nv = true) -> Ropt (Rc n root) o a F -> Ropt (Rk tok) o a F.
Proof.
  intros Hc Ho Hnv Hn HR. eapply Ropt_mono; [exact HR|]. intros d s -> -> H. split_and!; [done|by eapply nav_inv|]. intros Ht. eapply nav_node; [exact Hc|exact Ho|auto].
Qed.
Lemma nav_Rn tok nv c o a F : cin root c -> c_nav nv c = Ok o -> (tok = false -> node_nav nv = true) -> Ropt (Rc n root) o a F -> Ropt (Rn tok) o a F.
Proof.
  intros Hc Ho Hn HR. eapply Ropt_mono; [exact HR|]. intros d s -> -> H. split_and!; [done|]. intros Ht. eapply nav_node; [exact Hc|exact Ho|auto].
Qed.
Lemma tr_kids_finish tok P s (c : cursor) o a Fo F : P = own c s -> cin root c -> c_is_node c = true -> Ropt (Rk tok) o a Fo -> F ≡ₚ Fo ++ [P] ->
  tr F (r ← p_clone_opt a; PRet (r, KI s a true)) (Ok (o, CI c o true)) (stepped (Rk tok) (Rkids tok)).
Proof.
  intros -> Hc Hn HR HF. unfold Ropt in HR. destruct o as [d|], a as [x|]; try done.
  - destruct HR as [[Hd ->] Hk].
    unfold p_clone_opt. apply tr_assoc. apply (tr_clone T G K F x (n, c_path d)).
    { rewrite HF. left. }
    intros s'. eapply (tr_ret T G K); [reflexivity|]. exists [own d s'], F. split; [done|]. split; [by split|]. cbn [snd].
    split_and!; [done|done|done|done|]. exists [own d x]. split; [|by split]. rewrite HF. cbn [ki_parent ci_parent]. psolve.
  - subst Fo. eapply (tr_ret T G K); [reflexivity|]. exists [], F. split; [done|]. split; [done|]. split_and!; try done. exists []. split; [|done]. by rewrite HF.
Qed.
Lemma tr_kids_next tok cit it F : Rkids tok cit it F -> tr F (p_kids_next tok it) (kids_next tok cit) (stepped (Rk tok) (Rkids tok)).
Proof using HT Hwf.
  intros (Hc&Hn&Hi&H0&Fo&HF&HR). unfold p_kids_next. rewrite Hi.
  assert (Hin : own (ci_parent cit) (ki_parent it) ∈ F) by (rewrite HF; left).
  assert (Hk : kids_next tok cit =
    (nx ← (if negb (ci_init cit) then c_nav (if tok then NFirstChildOrToken else NFirstChild) (ci_parent cit)
           else match ci_next cit with Some next => c_nav (if tok then NNextSiblingOrToken else NNextSibling) next | None => Ok None end);
     Ok (nx, CI (ci_parent cit) nx true))) by (by destruct tok).
  rewrite Hk. clear Hk. destruct (ci_init cit) eqn:Ei; cbn [negb].
  - unfold Ropt in HR. destruct (ci_next cit) as [c|], (ki_next it) as [s|]; try done.
    + destruct HR as [[Hcc ->] [Hp Hnd]]. eapply (tr_to_next T G K n m root HT Hwf F [own (ci_parent cit) (ki_parent it)]); [done|rewrite HF; apply Permutation_swap|done|done|].
      intros o a Fo' HR Ho. eapply tr_kids_finish; [done|done|done| |done]. eapply nav_Rk; [exact Hcc|exact Ho|by destruct tok|by destruct tok|done].
    + subst Fo. change (tr F (r ← p_clone_opt None; PRet (r, KI (ki_parent it) None true)) (Ok (None, CI (ci_parent cit) None true)) (stepped (Rk tok) (Rkids tok))).
      by eapply tr_kids_finish.
  - rewrite (H0 eq_refl) in HR. unfold Ropt in HR. destruct (ki_next it); [done|]. subst Fo.
    eapply (tr_nav T G K n m root HT Hwf F); [done|done|done|]. intros o a Fo' HR Ho. eapply tr_kids_finish; [done|done|done| |by rewrite HF].
    eapply nav_Rk; [exact Hc|exact Ho|by destruct tok|by destruct tok|done].
Qed.
Lemma tr_kids_drop tok cit it F : Rkids tok cit it F -> tr F (p_kids_drop it) (Ok ()) (fun _ _ F' => F' = []).
Proof.
  intros (Hc&Hn&Hi&H0&Fo&HF&HR). unfold p_kids_drop. eapply tr_drop; [exact HF|]. apply tr_bind_ret.
  eapply tr_drop_opt; [apply Rk_one|exact HR|by rewrite app_nil_r|]. by eapply tr_ret.
Qed.
Lemma tr_kids_new {A B} tok F s c (k : kids -> script A) (r : res B) S : cin root c -> c_is_node c = true -> own c s ∈ F ->
  (forall it F1, Rkids tok (children_new c) it F1 -> tr (F1 ++ F) (k it) r S) -> tr F (p_kids_new s ≫= k) r S.
Proof.
  intros Hc Hn Hin Hk. unfold p_kids_new. apply tr_assoc. eapply tr_clone; [exact Hin|]. intros s'. apply (Hk (KI s' None false) [own c s']). split_and!; try done. by exists [].
Qed.
Lemma tr_children tok fuel s c : cin root c -> c_is_node c = true ->
  tr [own c s] (p_children tok fuel s) (collect (kids_next tok) fuel (children_new c)) (kept [own c s] (Rlist (Rk tok))).
Proof using HT Hwf.
  intros Hc Hn. unfold p_children. eapply tr_kids_new; [done|done|left|]. intros it F1 Hit.
  apply tr_bind_ret. rewrite <- (res_bind_ret (collect _ _ _)). eapply tr_call; [|reflexivity|].
  - eapply tr_collect; [apply tr_kids_next|apply tr_kids_drop|exact Hit].
  - intros l cl F' Hl. eapply tr_ret; [reflexivity|]. by exists F'.
Qed.

(** ** [by_kind], [ancestors], [siblings] *)
Lemma tr_kids_drop_k {A B} tok cit it F F1 F0 (k : unit -> script A) (r : res B) S : Rkids tok cit it F1 -> F ≡ₚ F1 ++ F0 -> tr F0 (k ()) r S -> tr F (p_kids_drop it ≫= k) r S.
Proof.
  intros Hit HF Hk. change r with (Ok () ≫= fun _ : unit => r). eapply tr_call; [eapply tr_kids_drop; exact Hit|exact HF|]. by intros [] [] F' ->.
Qed.
Lemma tr_successors tok nv : (nav_on_node nv = true -> tok = false) -> (tok = false -> node_nav nv = true) ->
  forall fuel o a F, Ropt (Rn tok) o a F -> tr F (p_successors (p_nav nv) fuel a) (collect (successors_next (c_nav nv)) fuel o) (Rlist (Rn tok)).
Proof using HT Hwf.
  intros Hn1 Hn2 fuel o a F HR. unfold p_successors. eapply tr_collect with (It := Ropt (Rn tok)); [| |exact HR]; clear F o a HR.
  - intros o a F HR. unfold Ropt in HR. destruct o as [c|], a as [s|]; try done; cbn [p_succ_next successors_next].
    + destruct HR as [[Hc ->] Hnd]. eapply (tr_nav T G K n m root HT Hwf); [done|left|auto|]. intros o a Fo HR Ho.
      eapply tr_ret; [reflexivity|]. exists [own c s], Fo. split; [apply Permutation_app_comm|]. split; [by split|]. by eapply nav_Rn.
    + subst F. eapply tr_ret; [reflexivity|]. by exists [], [].
  - intros o a F HR. apply tr_bind_ret. eapply tr_drop_opt; [apply Rn_one|exact HR|by rewrite app_nil_r|]. by eapply tr_ret.
Qed.
(** proof device, no counterpart in the code *)
Definition c_by_kind (tok : bool) (f : kind -> bool) (it : children_iter) : res (option cursor) := if tok then element_by_kind f it else node_by_kind f it.
(** proof device, no counterpart in the code *)
Definition by_kind_nav (tok : bool) (f : kind -> bool) : nav := if tok then NNextSiblingOrTokenByKind f else NNextSiblingByKind f.
Lemma l_kind_look c : l_kind (look_of c) = c_kind c.
Proof. unfold c_kind. simpl. by destruct (c_green c). Qed.
Lemma l_node_look c : is_node (l_tree (look_of c)) = c_is_node c.
Proof. simpl. apply erase_is_node. Qed.
Lemma tr_by_kind tok f cit it F : Rkids tok cit it F -> tr F (p_by_kind tok f it) (c_by_kind tok f cit) (Ropt (Rn tok)).
Proof using HT Hwf.
  intros Hit. pose proof Hit as (Hc&Hn&Hi&H0&Fo&HF&HR). unfold p_by_kind. rewrite Hi.
  assert (Hin : own (ci_parent cit) (ki_parent it) ∈ F) by (rewrite HF; left).
  assert (Hk : c_by_kind tok f cit =
    (if negb (ci_init cit) then c_nav (if tok then NFirstChildOrTokenByKind f else NFirstChildByKind f) (ci_parent cit)
     else match ci_next cit with
          | Some node => if f (c_kind node) then Ok (Some node) else c_nav (by_kind_nav tok f) node
          | None => Ok None
          end)) by (by destruct tok).
  rewrite Hk. clear Hk. destruct (ci_init cit) eqn:Ei; cbn [negb].
  - pose proof HR as HR0. unfold Ropt in HR0. destruct (ci_next cit) as [c|], (ki_next it) as [s|]; try done.
    + destruct HR0 as [[Hcc ->] [Hp Hnd]]. eapply (tr_look T G K n m root HT F s c); [done|rewrite HF; right; left|]. rewrite l_kind_look.
      destruct (f (c_kind c)).
      * eapply tr_drop; [exact HF|]. by eapply tr_ret.
      * rewrite <- (res_bind_ret (c_nav _ c)). eapply (tr_nav T G K n m root HT Hwf F); [done|rewrite HF; right; left|by destruct tok; [|intros _; apply Hnd]|].
        intros o a Fo' HR' Ho. eapply tr_kids_drop_k; [exact Hit|apply Permutation_app_comm|]. eapply tr_ret; [reflexivity|].
        eapply nav_Rn; [exact Hcc|exact Ho|by destruct tok|done].
    + subst Fo. eapply tr_drop; [exact HF|]. by eapply tr_ret.
  - rewrite <- (res_bind_ret (c_nav _ _)). eapply (tr_nav T G K n m root HT Hwf F); [done|done|done|].
    intros o a Fo' HR' Ho. eapply tr_kids_drop_k; [exact Hit|apply Permutation_app_comm|]. eapply tr_ret; [reflexivity|].
    eapply nav_Rn; [exact Hc|exact Ho|by destruct tok|done].
Qed.
Lemma tr_children_by_kind tok f fuel s c : cin root c -> c_is_node c = true ->
  tr [own c s] (p_children_by_kind tok f fuel s) (o ← c_by_kind tok f (children_new c); collect (successors_next (c_nav (by_kind_nav tok f))) fuel o)
    (kept [own c s] (Rlist (Rn tok))).
Proof using HT Hwf.
  intros Hc Hn. unfold p_children_by_kind. eapply tr_kids_new; [done|done|left|]. intros it F1 Hit.
  eapply tr_call; [eapply tr_by_kind; exact Hit|reflexivity|]. intros a o F' HR.
  apply tr_bind_ret. rewrite <- (res_bind_ret (collect _ _ _)). eapply tr_call; [eapply tr_successors; [| |exact HR]|reflexivity|].
  - by destruct tok.
  - by destruct tok.
  - intros l cl F'' Hl. eapply tr_ret; [reflexivity|]. by exists F''.
Qed.
Lemma tr_ancestors_new F s c : cin root c -> own c s ∈ F -> tr F (p_ancestors_new s) (Ok (ancestors_new c)) (kept F (Ropt (Rn false))).
Proof using HT Hwf.
  intros Hc Hin. unfold p_ancestors_new. eapply (tr_look T G K n m root HT); [exact Hc|done|]. rewrite l_node_look. unfold ancestors_new.
  destruct (c_is_node c) eqn:E.
  - eapply tr_clone; [exact Hin|]. intros s'. eapply tr_ret; [reflexivity|]. exists [own c s']. split; [done|]. by split.
  - change (Ok (c_parent c)) with (c_nav NParent c). eapply tracks_mono; [by apply tr_nav1|]. intros o a F' [(F1&HF&HR) Ho]. exists F1. split; [done|].
    eapply nav_Rn; [exact Hc|exact Ho|done|done].
Qed.
Lemma tr_ancestors fuel s c : cin root c ->
  tr [own c s] (p_ancestors fuel s) (collect ancestors_next fuel (ancestors_new c)) (kept [own c s] (Rlist (Rn false))).
Proof using HT Hwf.
  intros Hc. unfold p_ancestors. change (collect ancestors_next fuel (ancestors_new c)) with (Ok (ancestors_new c) ≫= collect ancestors_next fuel).
  eapply tr_call; [eapply tr_ancestors_new; [exact Hc|left]|by rewrite app_nil_r|]. intros a o F' (F1&HF&HR). rewrite app_nil_r.
  apply tr_bind_ret. rewrite <- (res_bind_ret (collect _ _ _)). eapply tr_call; [eapply (tr_successors false NParent); [done|done|exact HR]|exact HF|].
  intros l cl F'' Hl. eapply tr_ret; [reflexivity|]. by exists F''.
Qed.
Lemma tr_siblings tok d fuel s c : cin root c -> (tok = false -> c_is_node c = true) ->
  tr [own c s] (p_siblings tok d fuel s) (collect (successors_next (c_nav (sib_nav tok d))) fuel (Some c)) (kept [own c s] (Rlist (Rn tok))).
Proof using HT Hwf.
  intros Hc Hn. unfold p_siblings. eapply tr_clone; [left|]. intros s'. apply tr_bind_ret. rewrite <- (res_bind_ret (collect _ _ _)).
  eapply (tr_call T G K _ [own c s'] [own c s]); [eapply (tr_successors tok); [by destruct tok, d|by destruct tok, d|]|done|].
  - by split.
  - intros l cl F'' Hl. eapply tr_ret; [reflexivity|]. by exists F''.
Qed.

(** ** Preorder *)
(** an event at or below [start] *)
Definition Rev (tok : bool) (start : cursor) (e : wevent cursor) (e' : wevent nat) (F : rs) : Prop :=
  match e, e' with
  | Enter c, Enter s | Leave c, Leave s => Rn tok c s F /\ exists q, c_path c = c_path start ++ q
  | _, _ => False
  end.
Lemma Rev_one tok start e e' F : Rev tok start e e' F -> exists h, F = [(ev_slot e', h)].
Proof. unfold Rev. destruct e, e'; try done; intros [H _]; by eapply Rn_one. Qed.
(** proof device, no counterpart in the code *)
Definition Rwalk (tok : bool) (start : cursor) (po : preorder) (w : walk) (F : rs) : Prop :=
  po_start po = start /\ cin root start /\ wk_skip w = po_skip po /\
  (forall c, po_next po = Some (Enter c) -> c_path c = c_path start -> po_skip po = false) /\
  exists Fo, F ≡ₚ own start (wk_start w) :: Fo /\ Ropt (Rev tok start) (po_next po) (wk_next w) Fo.
(** the next event does not enter [start] *)
Definition inside (start : cursor) (po : preorder) : Prop := po_skip po = false /\ forall c, po_next po = Some (Enter c) -> c_path c <> c_path start.
(** proof device, no counterpart in the code *)
Definition c_walk_succ (tok : bool) := if tok then preorder_wt_succ else preorder_succ.
Lemma child_of c p i : cin root c -> c_path c = p ++ [i] -> exists c0, c_parent c = Some c0 /\ c_path c0 = p.
Proof.
  intros Hc Hp. destruct c as [g|c0 j off g]; [simpl in Hp; by destruct p|]. exists c0. split; [done|].
  change (c_path c0 ++ [j] = p ++ [i]) in Hp. by apply app_inj_tail in Hp as [? _].
Qed.
Lemma snoc_ne_self (p q : pos) i : (p ++ q) ++ [i] <> p.
Proof. intros E. apply (f_equal length) in E. rewrite !app_length in E. simpl in E. lia. Qed.
Lemma tr_walk_succ tok start sl e e' F Fe : cin root start -> Rev tok start e e' Fe -> F ≡ₚ Fe ++ [own start sl] ->
  tr F (p_walk_succ tok sl e') (c_walk_succ tok start e)
    (kept F (fun o a Fo => Ropt (Rev tok start) o a Fo /\ forall c, o = Some (Enter c) -> c_path c <> c_path start)).
Proof using HT Hwf Hco.
  intros Hst He HF. unfold Rev in He. destruct e as [c|c], e' as [s|s]; try done.
  - destruct He as [[[Hc ->] Hn] [q Hq]]. assert (Hin : own c s ∈ F) by (rewrite HF; left). cbn [p_walk_succ].
    eapply (tr_look T G K n m root HT); [exact Hc|done|]. rewrite l_node_look.
    assert (E : c_walk_succ tok start (Enter c) = (if c_is_node c then
        c_nav (if tok then NFirstChildOrToken else NFirstChild) c ≫= fun fc => Ok (Some match fc with Some child => Enter child | None => Leave c end)
      else Ok (Some (Leave c)))).
    { destruct tok; [done|]. by rewrite (Hn eq_refl). }
    rewrite E. clear E.
    assert (Hleave : tr F (p_clone s ≫= fun c' => PRet (Some (Leave c'))) (Ok (Some (Leave c)))
      (kept F (fun o a Fo => Ropt (Rev tok start) o a Fo /\ forall c, o = Some (Enter c) -> c_path c <> c_path start))).
    { eapply tr_clone; [exact Hin|]. intros s'. eapply tr_ret; [reflexivity|]. exists [own c s']. split; [done|]. split; [|done]. split; [by split|]. by exists q. }
    destruct (c_is_node c) eqn:En; [|exact Hleave].
    eapply (tr_nav T G K n m root HT Hwf F); [exact Hc|done|done|]. intros o a Fo HR Ho.
    pose proof (nav_Rn tok _ c o a Fo Hc Ho ltac:(by destruct tok) HR) as HR'. unfold Ropt in HR'.
    destruct o as [d|], a as [x|]; try done.
    + apply nav_path in Ho. assert (Hp : exists i, c_path d = c_path c ++ [i]).
      { destruct tok; destruct Ho as (p&i&->&?); by exists i. }
      destruct Hp as [i Hp]. eapply tr_ret; [reflexivity|]. exists Fo. split; [done|]. split.
      * split; [done|]. exists (q ++ [i]). by rewrite Hp, Hq, app_assoc.
      * intros ? [= <-]. rewrite Hp, Hq. apply snoc_ne_self.
    + subst Fo. exact Hleave.
  - destruct He as [[[Hc ->] Hn] [q Hq]]. assert (Hin : own c s ∈ F) by (rewrite HF; left). assert (Hin' : own start sl ∈ F) by (rewrite HF; right; left).
    cbn [p_walk_succ]. eapply (tr_eq T G K n m root HT Hco F s sl c start q); [done|done|done|done|done|].
    assert (E : c_walk_succ tok start (Leave c) = (if c_eqb c start then Ok None else
        c_nav (if tok then NNextSiblingOrToken else NNextSibling) c ≫= fun ns =>
        c_nav NParent c ≫= fun p => Ok match ns with Some sibling => Some (Enter sibling) | None => Leave <$> p end)) by (by destruct tok).
    rewrite E. clear E. destruct (c_eqb c start) eqn:Eq.
    { eapply tr_ret; [reflexivity|]. exists []. done. }
    assert (Hq' : exists q' i, q = q' ++ [i]).
    { destruct (exists_last (l := q)) as (q'&i&E); [|eauto]. intros ->. rewrite app_nil_r in Hq. unfold cin in *. rewrite Hq, Hst in Hc. injection Hc as ->.
      unfold c_eqb in Eq. by rewrite Nat.eqb_refl, N.eqb_refl in Eq. }
    destruct Hq' as (q'&i&->). rewrite app_assoc in Hq. destruct (child_of _ _ _ Hc Hq) as (c0&Hpar&Hp0).
    eapply (tr_nav T G K n m root HT Hwf F); [exact Hc|done|by destruct tok; [|intros _; apply Hn]|]. intros o a Fo HR Ho.
    pose proof (nav_Rn tok _ c o a Fo Hc Ho ltac:(by destruct tok) HR) as HR'. unfold Ropt in HR'.
    destruct o as [d|], a as [x|]; try done.
    + apply nav_path in Ho. assert (Hp : exists j, c_path d = c_path c0 ++ [j]).
      { destruct tok; destruct Ho as (p&j&Hp&?); exists j; assert (p = c0) as -> by (cbn in Hp; congruence); done. }
      destruct Hp as [j Hp]. change (c_nav NParent c) with (Ok (c_parent c)). cbn [mbind res_bind]. eapply tr_ret; [reflexivity|]. exists Fo. split; [done|]. split.
      * split; [done|]. exists (q' ++ [j]). by rewrite Hp, Hp0, app_assoc.
      * intros ? [= <-]. rewrite Hp, Hp0. apply snoc_ne_self.
    + subst Fo. eapply (tr_nav T G K n m root HT Hwf F); [exact Hc|done|done|]. intros o a Fo HR2 Ho2.
      pose proof (nav_Rn tok NParent c o a Fo Hc Ho2 ltac:(done) HR2) as HR3. cbn [c_nav] in Ho2. injection Ho2 as <-. rewrite Hpar in *.
      unfold Ropt in HR3. destruct a as [x|]; [|done]. eapply tr_ret; [reflexivity|]. exists Fo. split; [done|]. split; [|done]. split; [done|]. by exists q'.
Qed.
(** proof device, no counterpart in the code *)
Definition c_walk_next (tok : bool) : iter preorder (wevent cursor) := preorder_next_gen (c_walk_succ tok).
Lemma tr_walk_next tok start po w F : Rwalk tok start po w F ->
  tr F (p_walk_next tok w) (c_walk_next tok po) (stepped (Rev tok start) (fun po w F => Rwalk tok start po w F /\ inside start po)).
Proof using HT Hwf Hco.
  intros (<-&Hst&Hsk&Hin&Fo&HF&HR). unfold p_walk_next, c_walk_next, preorder_next_gen. rewrite Hsk.
  assert (Hgo : forall o a Fo, Ropt (Rev tok (po_start po)) o a Fo -> forall F, F ≡ₚ own (po_start po) (wk_start w) :: Fo ->
    tr F match a with
         | None => PRet (None, WK (wk_start w) None false)
         | Some e => nx ← p_walk_succ tok (wk_start w) e; PRet (Some e, WK (wk_start w) nx false)
         end
         match o with
         | None => Ok (None, PO (po_start po) None false)
         | Some e => nx ← c_walk_succ tok (po_start po) e; Ok (Some e, PO (po_start po) nx false)
         end (stepped (Rev tok (po_start po)) (fun po' w F => Rwalk tok (po_start po) po' w F /\ inside (po_start po) po'))).
  { clear F HF Fo HR. intros o a Fo HR F HF. unfold Ropt in HR. destruct o as [e|], a as [e'|]; try done.
    - eapply (tr_call T G K _ F []); [eapply tr_walk_succ; [exact Hst|exact HR|rewrite HF; apply Permutation_cons_append]|by rewrite app_nil_r|].
      intros a o F' (F1&HF1&HR1&Hfresh). rewrite app_nil_r. eapply tr_ret; [reflexivity|]. exists Fo, (own (po_start po) (wk_start w) :: F1).
      split; [rewrite HF1, HF; psolve|]. split; [done|]. split; [|by split]. split_and!; [done|done|done| |].
      + done.
      + by exists F1.
    - subst Fo. eapply tr_ret; [reflexivity|]. exists [], [own (po_start po) (wk_start w)]. split; [done|]. split; [done|]. split; [|by split]. split_and!; try done. by exists []. }
  destruct (po_skip po) eqn:Esk.
  - unfold Ropt in HR. destruct (po_next po) as [[c|c]|], (wk_next w) as [[s|s]|]; try done; cbn [do_skip p_do_skip].
    + destruct HR as [[[Hc ->] Hn] [q Hq]]. apply tr_assoc.
      assert (Hq' : exists q' i, q = q' ++ [i]).
      { destruct (exists_last (l := q)) as (q'&i&E); [|eauto]. intros ->. rewrite app_nil_r in Hq. by specialize (Hin c eq_refl Hq). }
      destruct Hq' as (q'&i&->). rewrite app_assoc in Hq. destruct (child_of _ _ _ Hc Hq) as (c0&Hpar&Hp0).
      rewrite Hpar. cbn [unwrap mbind res_bind].
      match goal with |- tracks _ _ _ _ _ ?r _ => change r with (c_nav NParent c ≫= fun _ => r) end.
      eapply (tr_nav T G K n m root HT Hwf F); [exact Hc|rewrite HF; right; left|done|]. intros o a Fo HR Ho.
      pose proof (nav_Rn tok NParent c o a Fo Hc Ho ltac:(done) HR) as HR2. cbn [c_nav] in Ho. injection Ho as <-. rewrite Hpar in *.
      unfold Ropt in HR2. destruct a as [x|]; [|done]. eapply tr_assoc, tr_drop; [rewrite HF; etrans; [apply Permutation_app_comm|]; apply Permutation_swap|].
      eapply (Hgo (Some (Leave c0)) (Some (Leave x)) Fo); [|done]. split; [done|]. by exists q'.
    + exact (Hgo (Some (Leave c)) (Some (Leave s)) Fo HR F HF).
    + subst Fo. exact (Hgo None None [] eq_refl F HF).
  - eapply Hgo; [exact HR|exact HF].
Qed.

Lemma tr_walk_drop tok start po w F : Rwalk tok start po w F -> tr F (p_walk_drop w) (Ok ()) (fun _ _ F' => F' = []).
Proof.
  intros (<-&Hst&Hsk&Hin&Fo&HF&HR). unfold p_walk_drop. eapply tr_drop; [exact HF|]. apply tr_bind_ret. unfold Ropt in HR.
  destruct (po_next po) as [e|], (wk_next w) as [e'|]; try done.
  - destruct (Rev_one _ _ _ _ _ HR) as [h ->]. eapply tr_drop; [reflexivity|]. by eapply tr_ret.
  - subst Fo. by eapply tr_ret.
Qed.
Lemma tr_walk_new {A B} tok F s c (k : walk -> script A) (r : res B) S : cin root c -> (tok = false -> c_is_node c = true) -> own c s ∈ F ->
  (forall w F1, Rwalk tok c (preorder_new c) w F1 -> tr (F1 ++ F) (k w) r S) -> tr F (p_walk_new s ≫= k) r S.
Proof.
  intros Hc Hn Hin Hk. unfold p_walk_new. apply tr_assoc. eapply tr_clone; [exact Hin|]. intros s1. apply tr_assoc. eapply tr_clone; [left|]. intros s2.
  eapply (tracks_perm T G K ([own c s1; own c s2] ++ F)); [apply Permutation_swap|]. apply (Hk (WK s1 (Some (Enter s2)) false)). split_and!; try done.
  exists [own c s2]. split; [done|]. split; [by split|]. exists []. by rewrite app_nil_r.
Qed.
Lemma tr_walk_drive tok skip start po w F : Rwalk tok start po w F ->
  tr F (p_walk_drive tok skip w) (drive (c_walk_next tok) (fun c => skip (look_of c)) po) (stepped (Rev tok start) (Rwalk tok start)).
Proof using HT Hwf Hco.
  intros Hw. unfold p_walk_drive, drive. eapply tr_call; [by apply tr_walk_next|by rewrite app_nil_r|]. intros [a w'] [o po'] F' (F1&F2&HF&HR&Hw'&Hi).
  rewrite app_nil_r. cbn [fst snd] in *. pose proof HR as HR'. unfold Ropt in HR'. destruct o as [[c|c]|], a as [[s|s]|]; try done.
  - destruct HR' as [[[Hc ->] Hn] Hq]. eapply (tr_look T G K n m root HT); [exact Hc|rewrite HF; left|]. eapply tr_ret; [reflexivity|].
    exists [own c s], F2. split; [done|]. split; [done|]. cbn [snd]. destruct (skip (look_of c)); [|done].
    destruct Hw' as (<-&Hst&Hsk&Hin&Fo&HF2&HR2). split_and!; [done|done|done| |by exists Fo]. intros d Hd Ed. by destruct (proj2 Hi d Hd).
  - eapply tr_ret; [reflexivity|]. by exists F1, F2.
  - eapply tr_ret; [reflexivity|]. by exists F1, F2.
Qed.
Lemma tr_preorder tok skip fuel s c : cin root c -> (tok = false -> c_is_node c = true) ->
  tr [own c s] (p_preorder tok skip fuel s) (collect (drive (c_walk_next tok) (fun c => skip (look_of c))) fuel (preorder_new c)) (kept [own c s] (Rlist (Rev tok c))).
Proof using HT Hwf Hco.
  intros Hc Hn. unfold p_preorder. eapply tr_walk_new; [exact Hc|exact Hn|left|]. intros w F1 Hw. apply tr_bind_ret. rewrite <- (res_bind_ret (collect _ _ _)).
  eapply tr_call; [eapply tr_collect; [|apply tr_walk_drop|exact Hw]|reflexivity|].
  - intros. by apply tr_walk_drive.
  - intros l cl F'' Hl. eapply tr_ret; [reflexivity|]. by exists F''.
Qed.
Lemma tr_entered tok start fuel : forall po w F, Rwalk tok start po w F ->
  tr F (p_entered tok fuel w) (filter_map enter_only <$> collect (c_walk_next tok) fuel po) (Rlist (Rn tok)).
Proof using HT Hwf Hco.
  induction fuel as [|fuel IH]; intros po w F Hw; [by apply tr_err|]. cbn [p_entered collect]. rewrite res_fmap_bind, res_bind_assoc.
  eapply tr_call; [by apply tr_walk_next|by rewrite app_nil_r|]. intros [a w'] [o po'] F' (F1&F2&HF&HR&Hw'&Hi).
  rewrite app_nil_r. cbn [fst snd] in *. pose proof HR as HR'. unfold Ropt in HR'. specialize (IH po' w'). rewrite res_fmap_bind in IH. destruct o as [[c|c]|], a as [[s|s]|]; try done.
  - destruct HR' as [[[Hc ->] Hn] Hq]. rewrite res_fmap_bind, res_bind_assoc.
    assert (E : (collect (c_walk_next tok) fuel po' ≫= (fun l => Ok (Enter c :: l) ≫= fun l => Ok (filter_map enter_only l)))
              = ((collect (c_walk_next tok) fuel po' ≫= fun l => Ok (filter_map enter_only l)) ≫= fun l => Ok (c :: l))) by (by destruct (collect _ _ _)).
    rewrite E. eapply tr_call; [by apply IH|rewrite HF; apply Permutation_app_comm|]. intros l cl F3 Hl. eapply tr_ret; [apply Permutation_app_comm|].
    exists [own c s], F3. split_and!; [done|by split|done].
  - destruct HR' as [[[Hc ->] Hn] Hq]. eapply tr_drop; [exact HF|]. rewrite res_fmap_bind, res_bind_assoc.
    exact (IH F2 Hw').
  - subst F1. change (Ok [] ≫= fun l => Ok (filter_map enter_only l)) with (Ok () ≫= fun _ : unit => Ok (@nil cursor)).
    eapply tr_call; [eapply tr_walk_drop; exact Hw'|by rewrite app_nil_r|]. intros [] [] F3 ->. by eapply tr_ret.
Qed.
Lemma tr_descendants tok fuel s c : cin root c -> (tok = false -> c_is_node c = true) ->
  tr [own c s] (p_descendants tok fuel s) (filter_map enter_only <$> collect (c_walk_next tok) fuel (preorder_new c)) (kept [own c s] (Rlist (Rn tok))).
Proof using HT Hwf Hco.
  intros Hc Hn. unfold p_descendants. eapply tr_walk_new; [exact Hc|exact Hn|left|]. intros w F1 Hw. apply tr_bind_ret. rewrite <- (res_bind_ret (_ <$> _)).
  eapply tr_call; [eapply tr_entered; exact Hw|reflexivity|]. intros l cl F'' Hl. eapply tr_ret; [reflexivity|]. by exists F''.
Qed.

(** ** Tokens *)
Lemma tr_end_token_f nv (ft : nat -> cursor -> res (option cursor)) : node_nav nv = false -> nav_on_node nv = true ->
  (forall c, ft 0 c = Err Diverge) ->
  (forall fuel c, ft (S fuel) c = if c_is_node c then o ← c_nav nv c; match o with Some el => ft fuel el | None => Ok None end else Ok (Some c)) ->
  forall fuel s c F, cin root c -> own c s ∈ F -> tr F (p_end_token_f nv fuel s) (ft fuel c) (kept F (Ropt (Rc n root))).
Proof using HT Hwf.
  intros _ _ H0 HS. induction fuel as [|fuel IH]; intros s c F Hc Hin; [rewrite H0; by apply tr_err|]. rewrite HS. cbn [p_end_token_f].
  eapply (tr_look T G K n m root HT); [exact Hc|done|]. rewrite l_node_look. destruct (c_is_node c) eqn:En.
  - eapply (tr_nav T G K n m root HT Hwf F); [exact Hc|done|done|]. intros o a Fo HR Ho. unfold Ropt in HR. destruct o as [d|], a as [x|]; try done.
    + destruct HR as [Hd ->]. rewrite <- (res_bind_ret (ft fuel d)). eapply (tr_call T G K _ ([own d x] ++ F) []); [apply IH; [exact Hd|left]|by rewrite app_nil_r|].
      intros a o F' (F1&HF1&HR1). rewrite app_nil_r. eapply (tr_drop T G K F' (F1 ++ F) x (n, c_path d)); [rewrite HF1; symmetry; apply Permutation_middle|]. eapply tr_ret; [reflexivity|]. by exists F1.
    + subst Fo. eapply tr_ret; [reflexivity|]. by exists [].
  - eapply tr_clone; [exact Hin|]. intros s'. eapply tr_ret; [reflexivity|]. exists [own c s']. split; [done|]. by split.
Qed.
Lemma tr_first_token s c F : cin root c -> own c s ∈ F -> tr F (p_first_token s) (first_token c) (kept F (Ropt (Rc n root))).
Proof using HT Hwf.
  intros Hc Hin. unfold p_first_token, p_end_token, first_token. eapply (tr_look T G K n m root HT); [exact Hc|done|]. cbn [l_tree Tracks.look_of look_at].
  rewrite <- gsize_erase. by apply (tr_end_token_f NFirstChildOrToken first_token_f).
Qed.
Lemma tr_last_token s c F : cin root c -> own c s ∈ F -> tr F (p_last_token s) (last_token c) (kept F (Ropt (Rc n root))).
Proof using HT Hwf.
  intros Hc Hin. unfold p_last_token, p_end_token, last_token. eapply (tr_look T G K n m root HT); [exact Hc|done|]. cbn [l_tree Tracks.look_of look_at].
  rewrite <- gsize_erase. by apply (tr_end_token_f NLastChildOrToken last_token_f).
Qed.

Lemma tr_ancestors_find nv : nav_on_node nv = false -> forall c fuel s, cin root c -> S (length (c_path c)) < fuel ->
  tr [own c s] (p_ancestors_find nv fuel (Some s)) (ancestors_find_map (c_nav nv) c) (Ropt (Rc n root)).
Proof using HT Hwf.
  intros Hnv. induction c as [g|c0 IH i off g]; intros fuel s Hc Hf; (destruct fuel as [|fuel]; [lia|]); cbn [p_ancestors_find p_succ_next].
  - apply tr_assoc. match goal with |- tracks _ _ _ _ _ ?r _ => change r with (c_nav NParent (CRoot g) ≫= fun _ => r) end.
    eapply (tr_nav T G K n m root HT Hwf); [exact Hc|left|done|]. intros o a Fo HR Ho. cbn [c_nav c_parent] in Ho. injection Ho as <-. destruct a as [|]; [done|]. simpl in HR. subst Fo. cbn [app].
    change (tr [own (CRoot g) s] (r ← p_nav nv s; _ ← p_drop s; match r with Some x => _ ← p_drop_opt None; PRet (Some x) | None => p_ancestors_find nv fuel None end)
      (ancestors_find_map (c_nav nv) (CRoot g)) (Ropt (Rc n root))).
    cbn [ancestors_find_map]. rewrite <- (res_bind_ret (c_nav nv (CRoot g))). eapply (tr_nav T G K n m root HT Hwf); [exact Hc|left|by rewrite Hnv|].
    intros o a Fo HR Ho. eapply (tr_drop T G K _ Fo); [symmetry; apply Permutation_cons_append|]. unfold Ropt in HR. destruct o as [d|], a as [x|]; try done.
    + by eapply tr_ret.
    + subst Fo. destruct fuel; [simpl in Hf; lia|]. by eapply tr_ret.
  - apply tr_assoc. match goal with |- tracks _ _ _ _ _ ?r _ => change r with (c_nav NParent (CChild c0 i off g) ≫= fun _ => r) end.
    eapply (tr_nav T G K n m root HT Hwf); [exact Hc|left|done|]. intros o a Fo HR Ho. cbn [c_nav c_parent] in Ho. injection Ho as <-. destruct a as [y|]; [|done]. simpl in HR. destruct HR as [Hc0 ->].
    change (tr ([own c0 y] ++ [own (CChild c0 i off g) s]) (r ← p_nav nv s; _ ← p_drop s; match r with Some x => _ ← p_drop_opt (Some y); PRet (Some x) | None => p_ancestors_find nv fuel (Some y) end)
      (ancestors_find_map (c_nav nv) (CChild c0 i off g)) (Ropt (Rc n root))).
    cbn [ancestors_find_map]. eapply (tr_nav T G K n m root HT Hwf); [exact Hc|right; left|by rewrite Hnv|].
    intros o a Fo HR Ho. eapply (tr_drop T G K _ (Fo ++ [own c0 y])); [rewrite app_assoc; symmetry; apply Permutation_cons_append|]. unfold Ropt in HR. destruct o as [d|], a as [x|]; try done.
    + eapply (tr_drop T G K _ Fo y); [symmetry; apply Permutation_cons_append|]. by eapply tr_ret.
    + subst Fo. apply IH; [done|]. change (c_path (CChild c0 i off g)) with (c_path c0 ++ [i]) in Hf. rewrite app_length in Hf. simpl in Hf. lia.
Qed.
Lemma tr_step_token nv ev (et : cursor -> res (option cursor)) fuel s c F : nav_on_node nv = false -> cin root c -> own c s ∈ F -> length (c_path c) < fuel ->
  (forall s c F, cin root c -> own c s ∈ F -> tr F (p_end_token ev s) (et c) (kept F (Ropt (Rc n root)))) ->
  tr F (p_step_token nv ev fuel s)
    (o ← c_nav nv c;
     match o with
     | Some el => et el
     | None => match c_parent c with
               | None => Ok None
               | Some p => o ← ancestors_find_map (c_nav nv) p; match o with Some el => et el | None => Ok None end
               end
     end) (kept F (Ropt (Rc n root))).
Proof using HT Hwf.
  intros Hnv Hc Hin Hf Het. unfold p_step_token.
  assert (Hend : forall d x, cin root d -> tr (own d x :: F) (r ← p_end_token ev x; _ ← p_drop x; PRet r) (et d) (kept F (Ropt (Rc n root)))).
  { intros d x Hd. rewrite <- (res_bind_ret (et d)). eapply (tr_call T G K _ (own d x :: F) []); [apply Het; [exact Hd|left]|by rewrite app_nil_r|].
    intros a o F' (F1&HF1&HR1). rewrite app_nil_r. eapply (tr_drop T G K F' (F1 ++ F) x (n, c_path d)); [rewrite HF1; symmetry; apply Permutation_middle|].
    eapply tr_ret; [reflexivity|]. by exists F1. }
  eapply (tr_nav T G K n m root HT Hwf); [exact Hc|done|by rewrite Hnv|]. intros o a Fo HR Ho. unfold Ropt in HR. destruct o as [d|], a as [x|]; try done.
  - destruct HR as [Hd ->]. by apply Hend.
  - subst Fo. cbn [app]. match goal with |- tracks _ _ _ _ _ ?r _ => change r with (c_nav NParent c ≫= fun _ => r) end.
    eapply (tr_nav T G K n m root HT Hwf); [exact Hc|done|done|]. intros o a Fo HR Ho'. cbn [c_nav] in Ho'. injection Ho' as <-. unfold Ropt in HR.
    destruct (c_parent c) as [c0|] eqn:Ep, a as [x|]; try done.
    + destruct HR as [Hc0 ->]. eapply tr_call; [eapply (tr_ancestors_find nv Hnv c0); [exact Hc0|]|reflexivity|].
      * destruct c as [|c1 i off g]; [done|]. simpl in Ep. injection Ep as ->. change (c_path (CChild c0 i off g)) with (c_path c0 ++ [i]) in Hf. rewrite app_length in Hf. simpl in Hf. lia.
      * intros a o F' HR. unfold Ropt in HR. destruct o as [d|], a as [y|]; try done.
        -- destruct HR as [Hd ->]. by apply Hend.
        -- subst F'. eapply tr_ret; [reflexivity|]. by exists [].
    + subst Fo. destruct fuel; [lia|]. eapply tr_ret; [reflexivity|]. by exists [].
Qed.
Lemma tr_next_token fuel s c F : cin root c -> own c s ∈ F -> length (c_path c) < fuel ->
  tr F (p_next_token fuel s) (next_token c) (kept F (Ropt (Rc n root))).
Proof using HT Hwf. intros Hc Hin Hf. apply (tr_step_token NNextSiblingOrToken NFirstChildOrToken first_token); [done|done|done|done|]. intros. by apply tr_first_token. Qed.
Lemma tr_prev_token fuel s c F : cin root c -> own c s ∈ F -> length (c_path c) < fuel ->
  tr F (p_prev_token fuel s) (prev_token c) (kept F (Ropt (Rc n root))).
Proof using HT Hwf. intros Hc Hin Hf. apply (tr_step_token NPrevSiblingOrToken NLastChildOrToken last_token); [done|done|done|done|]. intros. by apply tr_last_token. Qed.

(** ** Search *)
Lemma look_range c : cin root c -> l_range (look_of c) = (c_offset c, (c_offset c + blen (gtext (c_green c)))%N) /\
  c_text_range c = Ok (TR (c_offset c) (c_offset c + blen (gtext (c_green c)))).
Proof using Hwf.
  intros Hc. split; [|by eapply (c_text_range_at root Hwf)]. pose proof (crange_trange root Hwf _ _ Hc) as E. unfold trange in E. rewrite (cin_tsub _ _ Hc) in E.
  injection E as E1 E2. apply (f_equal2 (@pair N N) E1 E2).
Qed.
Lemma touches_look x c : cin root c -> touches x c = Ok (l_touches x (look_of c)).
Proof using Hwf.
  intros Hc. destruct (look_range c Hc) as [E1 E2]. unfold touches. rewrite E2. unfold l_touches. rewrite E1. unfold range_is_empty. done.
Qed.
Lemma tr_touching x : forall l fuel cit it F l', Rkids true cit it F -> yields element_children_next cit l -> filter_res (touches x) l = Ok l' -> length l < fuel ->
  tr F (p_touching_next x fuel it) (Ok ()) (fun _ a F' => exists cit' l2 F1 F2, F' ≡ₚ F1 ++ F2 /\ Ropt (Rk true) (head l') a.1 F1 /\ Rkids true cit' a.2 F2 /\
    yields element_children_next cit' l2 /\ filter_res (touches x) l2 = Ok (tail l') /\ length l2 <= length l).
Proof using HT Hwf.
  induction l as [|c l IH]; intros fuel cit it F l' Hit Hy Hl Hf; (destruct fuel as [|fuel]; [lia|]); cbn [p_touching_next].
  - inversion Hy as [? cit' E1 E2|]; subst. simpl in Hl. injection Hl as <-. pose proof (tr_eqn _ _ _ _ (tr_kids_next true cit it F Hit)) as Hn. cbn [kids_next] in Hn. rewrite E1 in Hn.
    change (Ok ()) with (Ok (@None cursor, cit') ≫= fun _ => Ok ()). eapply tr_call; [exact Hn|by rewrite app_nil_r|]. intros [a it'] [o cit''] F' ([= <- <-]&F1&F2&HF&HR&Hit').
    cbn [fst snd] in *. unfold Ropt in HR. destruct a as [|]; [done|]. subst F1. eapply tr_ret; [by rewrite app_nil_r|]. exists cit', [], [], F2. split_and!; try done.
    by eapply yields_nil.
  - inversion Hy as [|? ? cit' ? E1 Hy']; subst. pose proof (tr_eqn _ _ _ _ (tr_kids_next true cit it F Hit)) as Hn. cbn [kids_next] in Hn. rewrite E1 in Hn.
    change (Ok ()) with (Ok (Some c, cit') ≫= fun _ => Ok ()). eapply tr_call; [exact Hn|by rewrite app_nil_r|]. intros [a it'] [o cit''] F' ([= <- <-]&F1&F2&HF&HR&Hit').
    rewrite app_nil_r. cbn [fst snd] in *. unfold Ropt in HR. destruct a as [s|]; [|done]. pose proof HR as [[Hc ->] _].
    eapply (tr_look T G K n m root HT); [exact Hc|rewrite HF; left|]. cbn [filter_res] in Hl. rewrite (touches_look x c Hc) in Hl. cbn [mbind res_bind] in Hl.
    destruct (filter_res (touches x) l) as [r|] eqn:Er; [|done]. cbn [mbind res_bind] in Hl. injection Hl as <-. destruct (l_touches x (look_of c)).
    + eapply tr_ret; [reflexivity|]. exists cit', l, [own c s], F2. simpl. split_and!; try done. lia.
    + eapply tr_drop; [exact HF|]. eapply tracks_mono; [eapply (IH fuel cit'); [exact Hit'|done|done|simpl in Hf; lia]|].
      intros [] a F3 (cit3&l2&F4&F5&H1&H2&H3&H4&H5&H6). exists cit3, l2, F4, F5. split_and!; try done. simpl. lia.
Qed.

(** proof device, no counterpart in the code *)
Definition Rtao (r : token_at_offset_t cursor) (a : token_at_offset_t nat) (F : rs) : Prop :=
  match r, a with
  | TaoNone, TaoNone => F = []
  | TaoSingle c, TaoSingle s => Rc n root c s F
  | TaoBetween c d, TaoBetween s t => exists F1 F2, F ≡ₚ F1 ++ F2 /\ Rc n root c s F1 /\ Rc n root d t F2
  | _, _ => False
  end.
Lemma tr_assert {A B} F b (k : unit -> script A) (f : unit -> res B) S : (b = true -> tr F (k ()) (f ()) S) -> tr F (p_assert b ≫= k) (rassert b ≫= f) S.
Proof. intros H. destruct b; [by apply H|]. apply tr_panic. Qed.
Lemma tr_token_at_offset_f x : forall fuel s c F, cin root c -> own c s ∈ F ->
  tr F (p_token_at_offset_f fuel x s) (token_at_offset_f fuel c x) (kept F Rtao).
Proof using HT Hwf.
  induction fuel as [|fuel IH]; intros s c F Hc Hin; [by apply tr_err|]. cbn [p_token_at_offset_f token_at_offset_f].
  eapply (tr_look T G K n m root HT); [exact Hc|done|]. destruct (look_range c Hc) as [E1 E2]. rewrite E2, E1. cbn [mbind res_bind rstart rend fst snd].
  apply tr_assert. intros _. rewrite l_node_look. destruct (c_is_node c) eqn:En; cbn [negb].
  2: { eapply tr_clone; [exact Hin|]. intros s'. eapply tr_ret; [reflexivity|]. exists [own c s']. by split. }
  unfold range_is_empty. cbn [rstart rend]. destruct (_ =? _)%N.
  { eapply tr_ret; [reflexivity|]. by exists []. }
  eapply (tr_kids_new true); [exact Hc|exact En|exact Hin|]. intros it F1 Hit. cbv zeta.
  assert (Hlen : length (tchildren (l_tree (look_of c))) = length (gchildren (c_green c))) by (apply length_erase_children).
  rewrite Hlen. clear Hlen. destruct (children_with_tokens_yields root Hwf (c_path c) c Hc) as (cs&Hy&Hat).
  assert (Hlen : length cs = length (gchildren (c_green c))).
  { rewrite sel_from_any, Nat.sub_0_r, length_erase_children in Hat. apply Forall2_length in Hat. by rewrite seq_length in Hat. }
  assert (Hcw : children_with_tokens c = Ok cs) by (eapply yields_collect; [exact Hy|lia]).
  rewrite Hcw. cbn [mbind res_bind]. assert (Hfil : exists l', filter_res (touches x) cs = Ok l').
  { clear -m Hat Hwf. revert Hat. generalize (sel_from any (tchildren (erase (c_green c))) 0). induction cs as [|d cs IHc]; intros l Hat; [by exists []|].
    inversion Hat as [|i ? l0 ? Hd Hat']; subst. apply cin_at in Hd as [Hd _]. cbn [filter_res]. rewrite (touches_look x d Hd).
    destruct (IHc l0 Hat') as [l' ->]. cbn [mbind res_bind]. by eexists. }
  destruct Hfil as [l' Hl']. rewrite Hl'. cbn [mbind res_bind].
  match goal with |- tracks _ _ _ _ _ ?r _ => change r with (Ok () ≫= fun _ : unit => r) end.
  eapply tr_call; [eapply tr_touching; [exact Hit|exact Hy|exact Hl'|lia]|reflexivity|]. intros [o1 it1] [] Fx (cit1&l1&Fa&Fb&HFx&HRa&Hit1&Hy1&Hl1&Hle1). cbn [fst snd] in *.
  unfold Ropt in HRa. destruct l' as [|lft l'], o1 as [s1|]; try done; [apply tr_panic|]. destruct HRa as [[Hcl ->] _]. cbn [head tail] in *.
  match goal with |- tracks _ _ _ _ _ ?r _ => change r with (Ok () ≫= fun _ : unit => r) end.
  eapply (tr_call T G K _ Fb (own lft s1 :: F)); [eapply tr_touching; [exact Hit1|exact Hy1|exact Hl1|lia]|rewrite HFx; psolve|].
  intros [o2 it2] [] Fx2 (cit2&l2&Fa2&Fb2&HFx2&HRa2&Hit2&Hy2&Hl2&Hle2). cbn [fst snd] in *.
  match goal with |- tracks _ _ _ _ _ ?r _ => change r with (Ok () ≫= fun _ : unit => r) end.
  eapply (tr_call T G K _ Fb2 (Fa2 ++ own lft s1 :: F)); [eapply tr_touching; [exact Hit2|exact Hy2|exact Hl2|lia]|rewrite HFx2; psolve|].
  intros [o3 it3] [] Fx3 (cit3&l3&Fa3&Fb3&HFx3&HRa3&Hit3&Hy3&Hl3&Hle3). cbn [fst snd] in *.
  unfold Ropt in HRa2, HRa3. destruct l' as [|rgt l'], o2 as [s2|]; try done.
  - cbn [head tail] in *. destruct o3; [done|]. subst Fa2 Fa3. cbn [p_assert].
    change (tr (Fx3 ++ [] ++ own lft s1 :: F) (r ← p_token_at_offset_f fuel x s1; _ ← p_drop s1; _ ← p_kids_drop it3; PRet r) (token_at_offset_f fuel lft x) (kept F Rtao)).
    rewrite <- (res_bind_ret (token_at_offset_f _ _ _)). eapply (tr_call T G K _ (own lft s1 :: Fb3 ++ F) []); [eapply IH; [exact Hcl|left]|rewrite HFx3; psolve|].
    intros a r F4 (F5&HF5&HR5). rewrite app_nil_r. eapply (tr_drop T G K _ (F5 ++ Fb3 ++ F)); [rewrite HF5; symmetry; apply Permutation_middle|].
    eapply tr_kids_drop_k; [exact Hit3|rewrite app_assoc, (Permutation_app_comm F5), <- app_assoc; reflexivity|]. eapply tr_ret; [reflexivity|]. by exists F5.
  - destruct HRa2 as [[Hcr ->] _]. cbn [head tail] in *. destruct l' as [|? l'], o3 as [|]; try done; [|apply tr_panic]. cbn [head] in HRa3. subst Fa3. cbn [p_assert].
    match goal with |- tr _ (_ ≫= ?k) _ _ => change (tr (Fx3 ++ [own rgt s2] ++ own lft s1 :: F) (k ()) (tl ← token_at_offset_f fuel lft x; tr0 ← token_at_offset_f fuel rgt x;
      match tl, tr0 with TaoSingle l, TaoSingle r => Ok (TaoBetween l r) | _, _ => Err Panic end) (kept F Rtao)) end. cbv beta.
    eapply (tr_call T G K _ (own lft s1 :: own rgt s2 :: Fb3 ++ F) []); [eapply IH; [exact Hcl|left]|rewrite HFx3; psolve|].
    intros a r F4 (F5&HF5&HR5). rewrite app_nil_r.
    eapply (tr_call T G K _ F4 []); [eapply IH; [exact Hcr|rewrite HF5; apply elem_of_app; right; right; left]|by rewrite app_nil_r|].
    intros a' r' F6 (F7&HF7&HR7). rewrite app_nil_r. unfold Rtao in HR5, HR7. destruct r as [|cl|], a as [|sl|]; try done; try apply tr_panic.
    destruct r' as [|cr|], a' as [|sr|]; try done; try apply tr_panic.
    eapply (tr_drop T G K _ (F7 ++ F5 ++ own rgt s2 :: Fb3 ++ F) s1 (n, c_path lft)); [rewrite HF7, HF5; psolve|].
    eapply (tr_drop T G K _ (F7 ++ F5 ++ Fb3 ++ F) s2 (n, c_path rgt)); [psolve|].
    eapply (tr_kids_drop_k true cit3 it3 _ Fb3 ((F7 ++ F5) ++ F)); [exact Hit3|psolve|].
    eapply tr_ret; [reflexivity|]. exists (F7 ++ F5). split; [done|]. exists F5, F7. split; [apply Permutation_app_comm|]. done.
Qed.
Lemma tr_token_at_offset x s c F : cin root c -> own c s ∈ F -> tr F (p_token_at_offset x s) (token_at_offset c x) (kept F Rtao).
Proof using HT Hwf.
  intros Hc Hin. unfold p_token_at_offset, token_at_offset. eapply (tr_look T G K n m root HT); [exact Hc|done|]. cbn [l_tree Tracks.look_of look_at].
  rewrite <- gsize_erase. by apply tr_token_at_offset_f.
Qed.
Lemma tr_covering_f a b : (a <= b)%N -> forall fuel s c, cin root c ->
  tr [own c s] (p_covering_f fuel a b s) (covering_element_f fuel c (TR a b)) (Rc n root).
Proof using HT Hwf.
  intros Hab. induction fuel as [|fuel IH]; intros s c Hc; [by apply tr_err|]. cbn [p_covering_f covering_element_f].
  eapply (tr_look T G K n m root HT); [exact Hc|left|]. destruct (look_range c Hc) as [E1 E2]. rewrite E2, E1. cbn [mbind res_bind fst snd].
  unfold contains_range. cbn [rstart rend]. apply tr_assert. intros _. rewrite l_node_look. destruct (c_is_node c) eqn:En; cbn [negb]; [|by eapply tr_ret].
  eapply (tr_at_range T G K n m root HT Hwf); [exact Hc|left|done|done|]. intros o y Fo HR Ho. unfold Ropt in HR. destruct o as [d|], y as [y|]; try done.
  - destruct HR as [Hd ->]. eapply (tr_drop T G K _ [own d y]); [apply Permutation_swap|]. by apply IH.
  - subst Fo. by eapply tr_ret.
Qed.
Lemma tr_covering_element a b s c F : (a <= b)%N -> cin root c -> own c s ∈ F ->
  tr F (p_covering_element a b s) (covering_element c (TR a b)) (kept F (Rc n root)).
Proof using HT Hwf.
  intros Hab Hc Hin. unfold p_covering_element, covering_element. eapply (tr_look T G K n m root HT); [exact Hc|done|]. eapply tr_clone; [exact Hin|]. intros s'.
  cbn [l_tree Tracks.look_of look_at]. rewrite <- gsize_erase. apply tr_bind_ret. rewrite <- (res_bind_ret (covering_element_f _ _ _)).
  eapply (tr_call T G K _ [own c s'] F); [by apply tr_covering_f|done|]. intros y d F' HR. eapply tr_ret; [reflexivity|]. by exists F'.
Qed.
End facts.
