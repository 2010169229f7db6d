(** * Handles on the heap stand for positions in trees *)
From Verif Require Export ForestFacts HeapAttach.

(** a node, the number of its tree and its position there *)
Definition hpos : Type := id * (nat * pos).
(** proof device, no counterpart in the code *)
Definition rel1 (c : gmap id core) (T : list (bool * tree)) (z : hpos) : Prop :=
  exists r m, loc c z.1 r z.2.2 /\ T !! z.2.1 = Some (m, erase (gr c r)) /\ (o_mut <$> c !! z.1) = Some m.
(** proof device, no counterpart in the code *)
Definition simZ (c : gmap id core) (T : list (bool * tree)) (Z : list hpos) : Prop :=
  (forall z, z ∈ Z -> rel1 c T z) /\
  (forall a b ra rb, a ∈ Z -> b ∈ Z -> loc c a.1 ra a.2.2 -> loc c b.1 rb b.2.2 -> (a.2.1 = b.2.1 <-> ra = rb)).
(** proof device, no counterpart in the code *)
Definition simH (h : heap) (T : list (bool * tree)) (Z : list hpos) (G : list green) : Prop :=
  inv h (map fst Z) G /\ simZ (pc (P h)) T Z.

Lemma simZ_sub c T Z Z' : (forall z, z ∈ Z' -> z ∈ Z) -> simZ c T Z -> simZ c T Z'.
Proof. intros Hsub [H1 H2]. split; [auto|]. intros a b ra rb Ha Hb. apply H2; auto. Qed.
Lemma simZ_same c c' T Z : (forall z, z ∈ Z -> same_at c c' z.1) -> simZ c T Z -> simZ c' T Z.
Proof.
  intros Hs [H1 H2]. split.
  - intros z Hz. destruct (H1 z Hz) as (r&m&Hl&HT&Hm). destruct (Hs z Hz _ _ Hl) as (Hl'&Hg&Hm'). exists r, m. by rewrite Hg, Hm'.
  - intros a b ra rb Ha Hb Hla Hlb. destruct (H1 a Ha) as (r&m&Hl&_). destruct (H1 b Hb) as (r2&m2&Hl2&_).
    destruct (Hs a Ha _ _ Hl) as (Hl'&_). destruct (Hs b Hb _ _ Hl2) as (Hl2'&_).
    destruct (loc_fun _ _ _ _ Hl' _ _ Hla) as [-> _]. destruct (loc_fun _ _ _ _ Hl2' _ _ Hlb) as [-> _]. by apply H2.
Qed.
Lemma simZ_ext c T T' Z : (forall i v, T !! i = Some v -> T' !! i = Some v) -> simZ c T Z -> simZ c T' Z.
Proof. intros HT [H1 H2]. split; [|done]. intros z Hz. destruct (H1 z Hz) as (r&m&?&?&?). exists r, m. auto. Qed.
Lemma simZ_in c K T Z z r y p : shape c K -> simZ c T Z -> z ∈ Z -> loc c z.1 r z.2.2 -> loc c y r p -> simZ c T ((y, (z.2.1, p)) :: Z).
Proof.
  intros Hs [H1 H2] Hz Hl Hy. split.
  - intros a [->|Ha]%elem_of_cons; [|by apply H1]. destruct (H1 z Hz) as (r'&m&Hl'&HT&Hm). destruct (loc_fun _ _ _ _ Hl _ _ Hl') as [-> _].
    exists r, m. split_and!; [done|done|]. simpl. destruct (loc_gsub _ _ Hs _ _ _ Hl) as (cr&cz&Hr&_&Hcz&_&Hmz).
    destruct (loc_gsub _ _ Hs _ _ _ Hy) as (cr'&cy&Hr'&_&Hcy&_&Hmy). rewrite Hcz in Hm. rewrite Hcy. simpl in *. congruence.
  - intros a b ra rb [->|Ha]%elem_of_cons [->|Hb]%elem_of_cons Hla Hlb; simpl in *.
    + destruct (loc_fun _ _ _ _ Hla _ _ Hlb) as [-> _]. done.
    + destruct (loc_fun _ _ _ _ Hla _ _ Hy) as [-> _]. by apply (H2 z b).
    + destruct (loc_fun _ _ _ _ Hlb _ _ Hy) as [-> _]. by apply (H2 a z).
    + by apply H2.
Qed.
Lemma simZ_lt c T Z z : simZ c T Z -> z ∈ Z -> z.2.1 < length T.
Proof. intros [H1 _] Hz. destruct (H1 z Hz) as (r&m&_&HT&_). by apply lookup_lt_Some in HT. Qed.
Lemma simZ_new c T Z y r p m :
  simZ c T Z -> loc c y r p -> (o_mut <$> c !! y) = Some m -> (forall z r', z ∈ Z -> loc c z.1 r' z.2.2 -> r' <> r) ->
  simZ c (T ++ [(m, erase (gr c r))]) ((y, (length T, p)) :: Z).
Proof.
  intros HZ Hy Hm Hne. pose proof HZ as [H1 H2]. split.
  - intros a [->|Ha]%elem_of_cons.
    + exists r, m. split_and!; [done| |done]. simpl. by rewrite lookup_app_r, Nat.sub_diag by lia.
    + destruct (H1 a Ha) as (r'&m'&Hl&HT&Hm'). exists r', m'. split_and!; try done. by apply lookup_app_l_Some.
  - intros a b ra rb [->|Ha]%elem_of_cons [->|Hb]%elem_of_cons Hla Hlb; simpl in *.
    + destruct (loc_fun _ _ _ _ Hla _ _ Hlb) as [-> _]. done.
    + destruct (loc_fun _ _ _ _ Hla _ _ Hy) as [-> _]. pose proof (simZ_lt _ _ _ _ HZ Hb). pose proof (Hne _ _ Hb Hlb). split; [lia|congruence].
    + destruct (loc_fun _ _ _ _ Hlb _ _ Hy) as [-> _]. pose proof (simZ_lt _ _ _ _ HZ Ha). pose proof (Hne _ _ Ha Hla). split; [lia|congruence].
    + by apply H2.
Qed.
Lemma simH_perm h T Z Z' G : Z ≡ₚ Z' -> simH h T Z G -> simH h T Z' G.
Proof.
  intros E [Hi Hz]. split; [eapply inv_perm; [|exact Hi]; by rewrite E|]. eapply simZ_sub; [|exact Hz]. intros z. by rewrite E.
Qed.
Lemma simH_alive h T Z G z : simH h T Z G -> z ∈ Z ->
  exists r m cz, loc (pc (P h)) z.1 r z.2.2 /\ T !! z.2.1 = Some (m, erase (gr (pc (P h)) r)) /\ pc (P h) !! z.1 = Some cz /\ o_mut cz = m /\
    tsub (erase (gr (pc (P h)) r)) z.2.2 = Some (erase (o_grn cz)).
Proof.
  intros [(K&R&Hs&Ho&_) [H1 _]] Hz. destruct (H1 z Hz) as (r&m&Hl&HT&Hm).
  destruct (loc_gsub _ _ Hs _ _ _ Hl) as (cr&cz&Hr&_&Hcz&Hg&_). rewrite Hcz in Hm. injection Hm as Hm.
  exists r, m, cz. split_and!; try done. unfold gr. rewrite Hr. by rewrite erase_gsub, Hg.
Qed.

(** ** Handles *)
Lemma sim_clone h T Z G z : simH h T Z G -> z ∈ Z ->
  wp (h_clone z.1) (fun y h' => y = z.1 /\ simH h' T (z :: Z) G) h.
Proof.
  intros HS Hz. destruct (simH_alive _ _ _ _ _ HS Hz) as (r&m&cz&Hl&HT&Hcz&_). destruct HS as [Hi HZ].
  eapply wp_mono; [eapply wp_clone; [done|eauto]|]. intros ? h' (->&Hi'&E). split; [done|]. split; [done|]. rewrite E.
  eapply simZ_sub; [|exact HZ]. intros a [->|Ha]%elem_of_cons; done.
Qed.
Lemma sim_drop h T Z G z : simH h T (z :: Z) G -> wp (h_drop z.1) (fun _ h' => simH h' T Z G) h.
Proof.
  intros [Hi HZ]. eapply wp_mono; [by eapply wp_drop_same|]. intros [] h' (Hi'&_&Hs). split; [done|].
  eapply simZ_same; [|eapply simZ_sub; [|exact HZ]; intros; by right]. intros a Ha. apply Hs, elem_of_map. eauto.
Qed.

(** ** Navigation *)
(** cursor.rs: the methods named by [nav]; the citations are at the definitions used *)
Definition h_nav {bld : build} (env : henv) (n : nav) (x : id) : hm (option id) :=
  match n with
  | NParent => h_parent x
  | NFirstChild => h_first_child env x
  | NLastChild => h_last_child env x
  | NFirstChildByKind m => h_first_child_by_kind env m x
  | NFirstChildOrToken => h_first_child_or_token env x
  | NLastChildOrToken => h_last_child_or_token env x
  | NFirstChildOrTokenByKind m => h_first_child_or_token_by_kind env m x
  | NNextSibling => h_next_sibling env x
  | NPrevSibling => h_prev_sibling env x
  | NNextSiblingByKind m => h_next_sibling_by_kind env m x
  | NNextSiblingOrToken => h_next_sibling_or_token env x
  | NPrevSiblingOrToken => h_prev_sibling_or_token env x
  | NNextSiblingOrTokenByKind m => h_next_sibling_or_token_by_kind env m x
  end.
(** the handles added by an answer *)
Definition got (t : nat) (o : option pos) (y : option id) (Zn : list hpos) : Prop :=
  match o, y with
  | Some p, Some x => Zn = [(x, (t, p))]
  | None, None => Zn = []
  | _, _ => False
  end.

Lemma last_at_eq {A} (P : A -> bool) l hi o : is_last_below P l hi o -> o = last_at P l hi.
Proof. intros H. unfold last_at. rewrite (sel_go_last _ _ _ _ H). by destruct o. Qed.

(** selectors among green children and what they mean *)
Definition sel_ok (g : green) (o : option (nat * (N * green))) (i : option nat) : Prop :=
  valid_sel (gchildren g) o /\ fst <$> o = i.
Lemma sel_first_ok f P Q g n : selects f P -> agrees P Q ->
  sel_ok g (find_map f (drop n (enumerate (gchildren g)))) (first_at Q (tchildren (erase g)) n).
Proof.
  intros Hf HQ. destruct (sel_first f P g n Hf) as [Hv Hfst]. split; [done|]. apply first_at_eq. by apply (first_from_erase P Q).
Qed.
Lemma sel_last_ok f P Q g n : selects f P -> agrees P Q -> n <= length (gchildren g) ->
  sel_ok g (find_map f (drop (length (gchildren g) - n) (rev (enumerate (gchildren g))))) (last_at Q (tchildren (erase g)) n).
Proof.
  intros Hf HQ Hn. destruct (sel_last f P g n Hf Hn) as [Hv Hfst]. split; [done|]. apply last_at_eq. by apply (last_below_erase P Q).
Qed.
Lemma lookup_first {A B} (l : list A) (k : list B) j : length l = length k ->
  fst <$> (enumerate l !! j) = first_at any k j.
Proof.
  intros E. apply first_at_eq. rewrite lookup_enumerate. destruct (l !! j) as [x|] eqn:Ex; simpl.
  - split; [done|]. apply lookup_lt_Some in Ex. split; [|intros; lia]. rewrite E in Ex.
    apply lookup_lt_is_Some in Ex as [y Hy]. eauto.
  - intros i x Hi Hx. apply lookup_lt_Some in Hx. apply lookup_ge_None in Ex. lia.
Qed.
Lemma lookup_last {A B} (l : list A) (k : list B) i : length l = length k -> i <= length l ->
  fst <$> (match i with 0 => None | S i' => enumerate l !! i' end) = last_at any k i.
Proof.
  intros E Hi. apply last_at_eq. destruct i as [|i]; simpl; [intros; lia|]. rewrite lookup_enumerate.
  destruct (l !! i) as [x|] eqn:Ex; simpl; [|apply lookup_ge_None in Ex; lia].
  split; [lia|]. split; [|intros; lia]. rewrite E in Hi. destruct (lookup_lt_is_Some_2 k i) as [y Hy]; [lia|]. eauto.
Qed.
Lemma valid_lookup l j : valid_sel l (enumerate l !! j).
Proof.
  intros i ch. rewrite lookup_enumerate. destruct (l !! j) as [x|] eqn:Ex; simpl; [|done]. intros [= <- <-]. done.
Qed.

Section nav.
Context (env : henv) (Henv : henv_ok env).

Lemma sim_down sel f h T Z G z m t k cs :
  simH h T Z G -> z ∈ Z -> T !! z.2.1 = Some (m, t) -> tsub t z.2.2 = Some (Node k cs) ->
  (forall g, wfg g -> erase g = Node k cs -> sel_ok g (sel (gchildren g)) (f cs)) ->
  wp (h_child_opt env sel z.1)
     (fun y h' => exists Zn, got z.2.1 ((fun i => z.2.2 ++ [i]) <$> f cs) y Zn /\ simH h' T (Zn ++ Z) G) h.
Proof using Henv.
  intros HS Hz HT Ht Hsel. destruct (simH_alive _ _ _ _ _ HS Hz) as (r&m'&cz&Hl&HT'&Hcz&Hm&Hsub). rewrite HT in HT'. injection HT' as <- ->.
  assert (erase (o_grn cz) = Node k cs) as Eg by congruence. destruct HS as [Hi HZ].
  assert (Hwg : wfg (o_grn cz)).
  { pose proof Hi as (K&R&Hs&Ho&_). by eapply owned_wfg_live, owned_live. }
  destruct (Hsel _ Hwg Eg) as [Hv Hf].
  eapply wp_mono; [eapply (wp_child_opt env sel z.1); try done|].
  { by destruct (o_grn cz). }
  intros y h' (Hi'&Hsub'&Hat). rewrite <- Hf in *. destruct (sel (gchildren (o_grn cz))) as [ic|]; simpl in *.
  - destruct Hat as (x&->&Hlx). eexists. split; [done|]. split; [done|]. simpl. pose proof Hi' as (K'&R'&Hs'&_).
    eapply (simZ_in _ K' T Z z r); [done| |done| |done].
    + eapply simZ_same; [|exact HZ]. intros; by apply same_at_grow.
    + by apply (same_at_grow _ _ _ Hsub').
  - subst y. eexists. split; [done|]. split; [done|]. eapply simZ_same; [|exact HZ]. intros; by apply same_at_grow.
Qed.
Lemma sim_sideways sel f h T Z G z m t :
  simH h T Z G -> z ∈ Z -> T !! z.2.1 = Some (m, t) ->
  (forall i, sel i [] = None) ->
  (forall g i, i < length (gchildren g) -> sel_ok g (sel i (gchildren g)) (f (tchildren (erase g)) i)) ->
  wp (h_sibling_opt env sel z.1)
     (fun y h' => exists Zn, got z.2.1 (sideways t z.2.2 f) y Zn /\ simH h' T (Zn ++ Z) G) h.
Proof using Henv.
  intros HS Hz HT Hnil Hsel. destruct (simH_alive _ _ _ _ _ HS Hz) as (r&m'&cz&Hl&HT'&Hcz&Hm&Hsub). rewrite HT in HT'. injection HT' as <- ->.
  destruct HS as [Hi HZ]. destruct (o_par cz) as [q|] eqn:Hp.
  - destruct (loc_inv_child _ _ _ _ _ _ Hl Hcz Hp) as (p&Ep&Hlq). rewrite Ep in Hl, Hsub |- *.
    pose proof Hi as (K&R&Hs&_). destruct (sh_child _ _ Hs _ _ _ Hcz Hp) as (cq&rel&Hq&_&Hch&_).
    pose proof (lookup_lt_Some _ _ _ Hch) as Hlt. destruct (Hsel (o_grn cq) (o_idx cz) Hlt) as [Hv Hf].
    assert (sideways (erase (gr (pc (P h)) r)) (p ++ [o_idx cz]) f = (fun j => p ++ [j]) <$> f (tchildren (erase (o_grn cq))) (o_idx cz)) as ->.
    { unfold sideways. rewrite last_snoc, removelast_last.
      destruct (loc_gsub _ _ Hs _ _ _ Hlq) as (cr&cq'&Hr&_&Hq'&Hg&_). assert (cq' = cq) as -> by congruence.
      unfold gr. rewrite Hr. rewrite erase_gsub, Hg. done. }
    eapply wp_mono; [eapply (wp_sibling_opt_child env sel z.1); try done; eauto|].
    intros y h' (Hi'&Hsub'&Hat). rewrite <- Hf in *. destruct (sel (o_idx cz) (gchildren (o_grn cq))) as [ic|]; simpl in *.
    + destruct Hat as (x&->&Hlx). eexists. split; [done|]. split; [done|]. simpl. pose proof Hi' as (K'&R'&Hs'&_).
      eapply (simZ_in _ K' T Z z r); [done| |done| |done].
      * eapply simZ_same; [|exact HZ]. intros; by apply same_at_grow.
      * rewrite Ep. by apply (same_at_grow _ _ _ Hsub').
    + subst y. eexists. split; [done|]. split; [done|]. eapply simZ_same; [|exact HZ]. intros; by apply same_at_grow.
  - destruct (loc_inv_root _ _ _ _ _ Hl Hcz Hp) as [-> ->]. eapply wp_sibling_opt_root; [exact Hcz|done|done|].
    exists []. done.
Qed.
Lemma sel_next_tok i (cs : list (N * green)) : enumerate cs !! (i + 1) = find_map Some (drop (i + 1) (enumerate cs)).
Proof.
  rewrite <- (Nat.add_0_r (i + 1)) at 1. rewrite <- lookup_drop. by destruct (drop (i + 1) (enumerate cs)) as [|[]].
Qed.
Lemma enum_nil_lookup j : enumerate ([] : list (N * green)) !! j = None.
Proof. by rewrite lookup_enumerate. Qed.
Lemma find_enum_nil (f : nat * (N * green) -> option (nat * (N * green))) n : find_map f (drop n (enumerate ([] : list (N * green)))) = None.
Proof. unfold enumerate. simpl. by rewrite drop_nil. Qed.
Lemma selects_any : selects Some any.
Proof. by intros []. Qed.

Lemma sim_nav n h T Z G z m t o :
  simH h T Z G -> z ∈ Z -> T !! z.2.1 = Some (m, t) -> s_nav n t z.2.2 = SOk o ->
  wp (h_nav env n z.1) (fun y h' => exists Zn, got z.2.1 o y Zn /\ simH h' T (Zn ++ Z) G) h.
Proof using Henv.
  intros HS Hz HT Hn.
  assert (Hdown : forall sel f, down t z.2.2 f = SOk o ->
    (forall g, gis_node g = true -> sel_ok g (sel (gchildren g)) (f (tchildren (erase g)))) ->
    wp (h_child_opt env sel z.1) (fun y h' => exists Zn, got z.2.1 o y Zn /\ simH h' T (Zn ++ Z) G) h).
  { intros sel f Hd Hok. unfold down in Hd. destruct (tsub t z.2.2) as [[k cs|]|] eqn:Et; try done. injection Hd as <-.
    eapply sim_down; try done. intros g _ Eg. specialize (Hok g). rewrite Eg in Hok. apply Hok. by destruct g. }
  assert (Hside : forall sel f, sideways t z.2.2 f = o ->
    (forall i, sel i [] = None) -> (forall g i, i < length (gchildren g) -> sel_ok g (sel i (gchildren g)) (f (tchildren (erase g)) i)) ->
    wp (h_sibling_opt env sel z.1) (fun y h' => exists Zn, got z.2.1 o y Zn /\ simH h' T (Zn ++ Z) G) h).
  { intros sel f <- Hnil Hok. eapply sim_sideways; done. }
  assert (Hfn : forall o', for_node t z.2.2 o' = SOk o -> o' = o).
  { intros o'. unfold for_node. destruct (tsub t z.2.2) as [[]|]; try done. by intros [= ->]. }
  destruct n; simpl in Hn; cbn [h_nav].
  - injection Hn as <-. destruct (simH_alive _ _ _ _ _ HS Hz) as (r&m'&cz&Hl&HT'&Hcz&_). destruct HS as [Hi HZ].
    eapply wp_mono; [by eapply wp_parent|]. intros y h' (Hi'&E&Hat). pose proof Hi' as (K'&R'&Hs'&_). rewrite <- E in HZ.
    rewrite <- E in Hl. destruct z as [z1 [zt [|i0 p0]]]; cbn [fst snd] in *.
    + rewrite Hat in *. exists []. split; [done|]. split; [|done]. done.
    + destruct Hat as (x&->&Hx). eexists. split; [done|]. split; [done|]. eapply (simZ_in _ _ _ _ (z1, (zt, i0 :: p0))); try done.
  - eapply Hdown; [exact Hn|]. intros g Hg; cbv beta. apply (sel_first_ok sel_node _ _ g 0 sel_node_selects agrees_node).
  - eapply Hdown; [exact Hn|]. intros g Hg; cbv beta. rewrite length_erase_children.
    pose proof (sel_last_ok sel_node _ _ g (length (gchildren g)) sel_node_selects agrees_node ltac:(lia)) as Hok.
    by rewrite Nat.sub_diag in Hok.
  - eapply Hdown; [exact Hn|]. intros g Hg; cbv beta. apply (sel_first_ok _ _ _ g 0 (sel_node_kind_selects m0) (agrees_node_kind m0)).
  - eapply Hdown; [exact Hn|]. intros g Hg; cbv beta. split.
    + intros i ch. destruct (gchildren g) as [|a l]; simpl; [done|]. intros [= <- <-]. done.
    + rewrite <- (lookup_first (gchildren g)) by (by rewrite length_erase_children). rewrite lookup_enumerate. by destruct (gchildren g).
  - eapply Hdown; [exact Hn|]. intros g Hg; cbv beta. rewrite length_erase_children. rewrite last_lookup, length_enumerate. split.
    + apply valid_lookup.
    + rewrite <- (lookup_last (gchildren g)) by (by rewrite ?length_erase_children).
      destruct (gchildren g) as [|a l]; [done|]. done.
  - eapply Hdown; [exact Hn|]. intros g Hg; cbv beta. apply (sel_first_ok _ _ _ g 0 (sel_kind_selects m0) (agrees_kind m0)).
  - eapply Hside; [by apply Hfn|intros; apply find_enum_nil|]. intros g i Hi; cbv beta. rewrite Nat.add_1_r.
    apply (sel_first_ok sel_node _ _ g (S i) sel_node_selects agrees_node).
  - eapply Hside; [by apply Hfn| |].
    + intros [|i]; reflexivity.
    + intros g i Hi; cbv beta. simpl. rewrite rev_length, length_enumerate. destruct (Nat.ltb_spec (length (gchildren g)) i); [lia|].
      apply (sel_last_ok sel_node _ _ g i sel_node_selects agrees_node). lia.
  - eapply Hside; [by apply Hfn|intros; apply find_enum_nil|]. intros g i Hi; cbv beta. rewrite Nat.add_1_r.
    apply (sel_first_ok _ _ _ g (S i) (sel_node_kind_selects m0) (agrees_node_kind m0)).
  - injection Hn as <-. eapply Hside; [done|intros; apply enum_nil_lookup|]. intros g i Hi; cbv beta. rewrite Nat.add_1_r. split; [apply valid_lookup|].
    apply lookup_first. by rewrite length_erase_children.
  - injection Hn as <-. eapply Hside; [done|intros [|i]; [done|apply enum_nil_lookup]|]. intros g i Hi; cbv beta. split.
    + destruct i; [done|]. apply valid_lookup.
    + apply lookup_last; [by rewrite length_erase_children|lia].
  - injection Hn as <-. eapply Hside; [done|intros; apply find_enum_nil|]. intros g i Hi; cbv beta. rewrite Nat.add_1_r.
    apply (sel_first_ok _ _ _ g (S i) (sel_kind_selects m0) (agrees_kind m0)).
Qed.
End nav.
