(** * The operations of a client, one by one, on heap and specification *)
From Verif Require Export HeapSim.

(** ** Roots, copies and green elements *)
Lemma fresh_tree c c' K T Z x cx : c ⊆ c' -> shape c K -> simZ c T Z -> c !! x = None -> c' !! x = Some cx -> o_par cx = None ->
  simZ c' T Z /\ forall z r', z ∈ Z -> loc c' z.1 r' z.2.2 -> r' <> x.
Proof.
  intros Hsub Hs HZ Hn Hx Hp. split.
  - eapply simZ_same; [|exact HZ]. intros; by apply same_at_grow.
  - intros z r' Hz Hl ->. pose proof HZ as [H1 _]. destruct (H1 z Hz) as (r&m&Hl'&_).
    destruct (same_at_grow _ _ z.1 Hsub _ _ Hl') as (Hl2&_). destruct (loc_fun _ _ _ _ Hl _ _ Hl2) as [-> _].
    destruct (loc_root_core _ _ _ _ Hl') as (?&?&_). congruence.
Qed.
Lemma simH_G h T Z G G' : G ≡ₚ G' -> simH h T Z G -> simH h T Z G'.
Proof. intros E [Hi HZ]. split; [by eapply inv_perm_G|done]. Qed.

Lemma loc_fun_root c x r : loc c x r [] -> r = x /\ forall cx, c !! x = Some cx -> o_par cx = None.
Proof. intros H. inversion H as [? cx Hx Hp|? ? ? ? p]; subst; [split; [done|]; congruence|by destruct p]. Qed.

Section step.
Context (env : henv) (Henv : henv_ok env).

Lemma sim_new_root h T Z G g m :
  simH h T Z (g :: G) ->
  wp (h_new env None 0 0 g m) (fun x h' => simH h' (T ++ [(m, erase g)]) ((x, (length T, [])) :: Z) G) h.
Proof using Henv.
  intros [Hi HZ]. pose proof Hi as (K&R&Hs&_). eapply wp_mono; [by eapply wp_new_root_gen|].
  intros x h' (Hi'&Hsub&Hn&cx&Hx&Hp&_&Hg&Hm). split; [done|].
  destruct (fresh_tree _ _ _ _ _ _ _ Hsub Hs HZ Hn Hx Hp) as [HZ' Hne]. subst g.
  assert (erase (o_grn cx) = erase (gr (pc (P h')) x)) as -> by (unfold gr; by rewrite Hx).
  apply simZ_new; [done|by eapply loc_root|by rewrite Hx, <- Hm|done].
Qed.
Lemma sim_green_own h T Z G g : simH h T Z G -> g ∈ G -> wp (h_green_own g) (fun _ h' => simH h' T Z (g :: G)) h.
Proof.
  intros [Hi HZ] Hg. pose proof Hi as (K&R&Hs&Ho&_). eapply wp_mono; [eapply wp_green_own_inv; [done|]|].
  - apply live_elem. rewrite (on_perm _ _ _ _ Ho). apply elem_of_app. by right.
  - intros [] h' (Hi'&E&_). split; [done|]. by rewrite E.
Qed.
Lemma sim_green_read h T Z G g : simH h T Z G -> g ∈ G -> h_green_read g h = (Ok (), h).
Proof.
  intros [Hi HZ] Hg. pose proof Hi as (K&R&Hs&Ho&_). unfold h_green_read, g_live. rewrite bool_decide_eq_true_2; [done|].
  apply live_addr, live_elem. change (ow h) with (po (P h)). rewrite (on_perm _ _ _ _ Ho). apply elem_of_app. by right.
Qed.
Lemma sim_green_own_kid h T Z G g c : simH h T Z G -> g ∈ G -> c ∈ kids g -> wp (h_green_own c) (fun _ h' => simH h' T Z (c :: G)) h.
Proof.
  intros [Hi HZ] Hg Hc. pose proof Hi as (K&R&Hs&Ho&_). eapply wp_mono; [eapply wp_green_own_inv; [done|]|].
  - eapply live_kid; [|exact Hc]. apply live_elem. rewrite (on_perm _ _ _ _ Ho). apply elem_of_app. by right.
  - intros [] h' (Hi'&E&_). split; [done|]. by rewrite E.
Qed.
Lemma sim_green_drop h T Z G g : simH h T Z (g :: G) -> wp (h_green_drop g) (fun _ h' => simH h' T Z G) h.
Proof.
  intros [(K&R&Hs&Ho&Hl&Hc) HZ].
  assert (g ∈ po (P h)) as Hg. { rewrite (on_perm _ _ _ _ Ho). apply elem_of_app. right. left. }
  eapply wp_green_drop; [by apply (on_coh _ _ _ _ Ho)|done|]. intros h' o' E Hp. split; [|by rewrite E].
  exists K, R. rewrite E. split_and!; psimpg; try done. destruct Ho as [HR HRn HRp HRw HRc].
  assert (g :: o' ≡ₚ g :: map (gr (pc (P h))) R ++ G) as Hp'. { etrans; [symmetry; exact Hp|]. rewrite HRp. symmetry. apply Permutation_middle. }
  constructor; try done.
  - by eapply Permutation_cons_inv.
  - rewrite Hp in HRw. by inversion HRw.
  - eapply cohl_subset; [|exact HRc]. intros x Hx. apply live_elem. rewrite Hp. by right.
Qed.
Lemma sim_green_build h T Z G f t :
  simH h T Z G ->
  (forall a, exists g, f a = Ok g /\ gaddr g = a /\ wfg g /\ (forall x, x ∈ kids g -> live G x) /\ erase g = t) ->
  wp (h_green_build env f None) (fun g h' => erase g = t /\ simH h' T Z (g :: G)) h.
Proof using Henv.
  intros [(K&R&Hs&Ho&Hl&Hc) HZ] Hf.
  eapply (wp_wpx _ _ (fun _ => False)); [|by intros ? []].
  eapply (wpx_green_build env f None (fun g => erase g = t) (fun _ => False)); [done|apply Ho|apply Ho|done| | |done].
  - intros a. destruct (Hf a) as (g&->&Ha&Hw&Hk&He). split_and!; try done. intros x Hx. destruct (Hk x Hx) as (y&q&Hy&Hq).
    exists y, q. split; [|done]. rewrite (on_perm _ _ _ _ Ho). apply elem_of_app. by right.
  - intros g h' o' Hg Hw Hd E HFw Hcoh. split; [done|]. split; [|by rewrite E].
    exists K, R. rewrite E. split_and!; psimpg; try done. simpl in Hd. subst o'. destruct Ho as [HR HRn HRp HRw HRc]. constructor; try done.
    rewrite HRp. apply Permutation_middle.
Qed.
(** what the arguments are, the constructor either fits or panics *)
Lemma sim_green_build_panic h f : (forall a, f a = Err Panic) -> (h_green_build env f None h).1 = Err Panic.
Proof. intros Hf. unfold h_green_build. by rewrite Hf. Qed.

Lemma sim_clone_subtree h T Z G z m t x :
  simH h T Z G -> z ∈ Z -> T !! z.2.1 = Some (m, t) -> tsub t z.2.2 = Some x -> is_node x = true ->
  wp (h_clone_subtree env z.1) (fun y h' => simH h' (T ++ [(false, x)]) ((y, (length T, [])) :: Z) G) h.
Proof using Henv.
  intros HS Hz HT Ht Hn. destruct (simH_alive _ _ _ _ _ HS Hz) as (r&m'&cz&Hl&HT'&Hcz&Hm&Hsub). rewrite HT in HT'. injection HT' as <- ->.
  rewrite Ht in Hsub. injection Hsub as ->. destruct HS as [Hi HZ]. pose proof Hi as (K&R&Hs&_).
  eapply wp_mono; [eapply wp_clone_subtree; [done|done|exact Hcz|by rewrite <- erase_is_node]|].
  intros y h' (Hi'&Hsub'&Hly&Hnone&Hg&Hmy). split; [done|]. destruct (loc_root_core _ _ _ _ Hly) as (cy&Hy&Hpy).
  destruct (fresh_tree _ _ _ _ _ _ _ Hsub' Hs HZ Hnone Hy Hpy) as [HZ' Hne]. rewrite <- Hg. by apply simZ_new.
Qed.
Lemma sim_clone_for_update h T Z G z t x :
  simH h T Z G -> z ∈ Z -> T !! z.2.1 = Some (false, t) -> tsub t z.2.2 = Some x -> is_node x = true ->
  wp (h_clone_for_update env z.1) (fun y h' => simH h' (T ++ [(true, t)]) ((y, (length T, z.2.2)) :: Z) G) h.
Proof using Henv.
  intros HS Hz HT Ht Hn. destruct (simH_alive _ _ _ _ _ HS Hz) as (r&m'&cz&Hl&HT'&Hcz&Hm&Hsub). rewrite HT in HT'. injection HT' as <- ->.
  rewrite Ht in Hsub. injection Hsub as ->. destruct HS as [Hi HZ]. pose proof Hi as (K&R&Hs&_).
  eapply wp_mono; [eapply wp_clone_for_update; [done|done|exact Hl|exact Hcz|done|by rewrite <- erase_is_node]|].
  intros y h' (Hi'&Hsub'&r'&Hly&Hnone&Hg&Hmy). split; [done|]. destruct (loc_root_core _ _ _ _ Hly) as (cr&Hr&Hpr).
  destruct (fresh_tree _ _ _ _ _ _ _ Hsub' Hs HZ Hnone Hr Hpr) as [HZ' Hne]. rewrite <- Hg. pose proof Hi' as (K'&R'&Hs'&_).
  apply simZ_new; try done. destruct (loc_gsub _ _ Hs' _ _ _ Hly) as (cr'&cy&Hr'&_&Hy&_&Hmm). rewrite Hy. rewrite Hr' in Hmy. simpl in *. congruence.
Qed.
Lemma sim_green h T Z G z m t x :
  simH h T Z G -> z ∈ Z -> T !! z.2.1 = Some (m, t) -> tsub t z.2.2 = Some x ->
  wp (g ← h_green z.1; _ ← h_green_own g; mret g) (fun g h' => erase g = x /\ simH h' T Z (g :: G)) h.
Proof.
  intros HS Hz HT Ht. destruct (simH_alive _ _ _ _ _ HS Hz) as (r&m'&cz&Hl&HT'&Hcz&Hm&Hsub). rewrite HT in HT'. injection HT' as <- ->.
  rewrite Ht in Hsub. injection Hsub as ->. destruct HS as [Hi HZ]. pose proof Hi as (K&R&Hs&Ho&_).
  apply wp_bind. eapply wp_green_of; [exact Hcz|by eapply owned_live|]. apply wp_bind.
  eapply wp_mono; [eapply wp_green_own_inv; [done|by eapply owned_live]|]. intros [] h1 (Hi1&E1&_). apply wp_ret.
  split; [done|]. split; [done|]. by rewrite E1.
Qed.

(** ** Looking *)
(** cursor.rs: [is_mutable] (cursor.rs:576-578), [parent] and [index], [kind], [text_range]
    and the green element, all through the handle *)
Definition h_look {bld : build} (x : id) : hm look :=
  n ← h_get x;
  i ← h_index x;
  k ← h_kind x;
  r ← h_text_range x;
  g ← h_green x;
  mret (Look (n_mut n) (match n_par n with Some _ => Some i | None => None end) k (rstart r, rend r) (erase g)).
Lemma sim_look h T Z G z st l :
  simH h T Z G -> z ∈ Z -> s_trees st = T -> s_look st z.2 = SOk l -> wp (h_look z.1) (fun l' h' => l' = l /\ h' = h) h.
Proof.
  intros HS Hz <- Hk. unfold s_look in Hk. destruct (simH_alive _ _ _ _ _ HS Hz) as (r&m&cz&Hl&HT&Hcz&Hm&Hsub). rewrite HT, Hsub in Hk.
  destruct HS as [Hi HZ]. pose proof Hi as (K&R&Hs&Ho&_). destruct (inv_loc_tree _ _ _ _ _ _ Hi Hl) as (cur&cz'&Hc&Hcz'&Hg&Hw&Hv).
  assert (cz' = cz) as -> by congruence. rewrite (crange_trange _ Hw _ _ Hc) in Hk. injection Hk as <-.
  apply wp_bind. eapply wp_get; [exact Hcz|]. intros n En _ _ _ _. apply wp_bind. apply wp_bind.
  eapply wp_get; [exact Hcz|]. intros n2 En2 _ _ _ _. apply wp_ret.
  apply wp_bind. eapply wp_kind; [done|exact Hcz|]. apply wp_bind. eapply wp_text_range; [done|exact Hv|].
  apply wp_bind. eapply wp_green_of; [exact Hcz|by eapply owned_live|]. apply wp_ret. split; [|done].
  assert (n_mut n = o_mut cz) as -> by (by rewrite <- En). assert (n_par n = o_par cz) as -> by (by rewrite <- En).
  assert (n_idx n2 = o_idx cz) as -> by (by rewrite <- En2). rewrite Hm, erase_kind. unfold crange. rewrite Hg.
  f_equal. destruct (o_par cz) as [q|] eqn:Hp.
  - destruct (loc_inv_child _ _ _ _ _ _ Hl Hcz Hp) as (p&->&_). by rewrite last_snoc.
  - by destruct (loc_inv_root _ _ _ _ _ Hl Hcz Hp) as [_ ->].
Qed.

(** ** The child at a range *)
Lemma kid_start_erase g i : gis_node g = true -> kid_start (tchildren (erase g)) i = cstart g i.
Proof.
  destruct g as [a k n cs|]; [|done]. intros _. unfold kid_start, cstart. rewrite gctext_ctext. unfold kids. simpl.
  unfold ctext. f_equal. f_equal. f_equal. rewrite !firstn_map, map_map. done.
Qed.
Lemma last_filter_none {A} (f : A -> bool) l : (forall x, In x l -> f x = false) -> last (List.filter f l) = None.
Proof.
  intros H. assert (List.filter f l = []) as ->; [|done]. induction l as [|x l IH]; [done|]. simpl.
  rewrite (H x) by (by left). apply IH. intros y Hy. apply H. by right.
Qed.
Lemma filter_seq_head (f : nat -> bool) n i : i < n -> f i = true -> (forall j, j < i -> f j = false) -> head (List.filter f (seq 0 n)) = Some i.
Proof.
  intros Hi Hf Hj. replace n with (i + S (n - S i)) by lia. rewrite seq_app, List.filter_app. simpl. rewrite Hf.
  assert (List.filter f (seq 0 i) = []) as ->; [|done]. clear Hi Hf. induction i as [|i IH]; [done|].
  rewrite seq_S, List.filter_app, IH by (intros; apply Hj; lia). simpl. by rewrite Hj by lia.
Qed.
Lemma filter_seq_last (f : nat -> bool) n i : i < n -> f i = true -> (forall j, i < j -> j < n -> f j = false) -> last (List.filter f (seq 0 n)) = Some i.
Proof.
  intros Hi Hf Hj. replace n with (i + S (n - S i)) by lia. rewrite seq_app, List.filter_app. simpl. rewrite Hf.
  assert (List.filter f (seq (S i) (n - S i)) = []) as ->; [|by rewrite last_snoc]. clear Hf.
  assert (forall l, (forall j, In j l -> f j = false) -> List.filter f l = []) as Hnil.
  { intros l. induction l as [|x l IH]; [done|]. intros H. simpl. rewrite (H x) by (by left). apply IH. intros y Hy. apply H. by right. }
  apply Hnil. intros j [H1 H2]%in_seq. apply Hj; lia.
Qed.
Lemma filter_filter {A} (f g : A -> bool) l : List.filter f (List.filter g l) = List.filter (fun x => g x && f x) l.
Proof. induction l as [|x l IH]; [done|]. simpl. destruct (g x); simpl; [destruct (f x); by rewrite IH|done]. Qed.
Lemma at_range_spec g rel : wfg g -> gis_node g = true -> range_ok rel ->
  fst <$> (fst <$> child_at_range g rel) = at_range (tchildren (erase g)) (rstart rel) (rend rel).
Proof.
  intros Hw Hn Hr. pose proof (child_at_range_spec g rel Hw Hr) as Hs. unfold range_ok in Hr. unfold at_range.
  rewrite filter_filter, length_erase_children. set (c := cstart g).
  assert (Hc : forall i, kid_start (tchildren (erase g)) i = c i) by (intros; by apply kid_start_erase).
  assert (Hm : forall i j, i <= j -> (c i <= c j)%N) by (intros; by apply cstart_mono).
  destruct (child_at_range g rel) as [[[i off] x]|]; simpl.
  - destruct Hs as (Hch&H1&H2&H3&H4). pose proof (lookup_lt_Some _ _ _ Hch) as Hlt. fold c in H1, H2, H3, H4.
    assert (H3' : forall j, i < j -> j < length (gchildren g) -> (c j <= rstart rel)%N -> (rend rel <= c (S j))%N -> (rend rel < c (S j))%N).
    { intros j Hij Hj. destruct (lookup_lt_is_Some_2 _ _ Hj) as [y Hy]. by apply (H3 j y). }
    destruct (N.eqb_spec (c (S i)) (rstart rel)) as [Ee|Ee].
    + rewrite (filter_seq_last _ _ i); [done|done| |].
      * rewrite !Hc. rewrite Ee, N.eqb_refl. rewrite !(proj2 (N.leb_le _ _)) by lia. done.
      * intros j Hij Hj. rewrite !Hc. destruct (N.leb_spec (c j) (rstart rel)); [|done]. destruct (N.leb_spec (rend rel) (c (S j))); [|done]. simpl.
        apply N.eqb_neq. specialize (H3' j Hij Hj). lia.
    + rewrite last_filter_none.
      * symmetry. apply filter_seq_head; [done| |].
        -- rewrite !Hc. by rewrite !(proj2 (N.leb_le _ _)) by lia.
        -- intros j Hj. rewrite !Hc. destruct (N.leb_spec (c j) (rstart rel)); [|done]. destruct (N.leb_spec (rend rel) (c (S j))); [|done]. exfalso.
           pose proof (Hm (S j) i ltac:(lia)). destruct H4; lia.
      * intros j [_ Hj]%in_seq. rewrite !Hc. destruct (N.leb_spec (c j) (rstart rel)); [|done]. destruct (N.leb_spec (rend rel) (c (S j))); [|done]. simpl.
        apply N.eqb_neq. intros Ej. destruct (decide (j < i)) as [Hji|Hji].
        -- pose proof (Hm (S j) i ltac:(lia)). destruct H4; lia.
        -- destruct (decide (j = i)) as [->|]; [lia|]. specialize (H3' j ltac:(lia) Hj). lia.
  - assert (Hnone : forall j, j < length (gchildren g) -> (c j <=? rstart rel)%N && (rend rel <=? c (S j))%N = false).
    { intros j Hj. destruct (lookup_lt_is_Some_2 _ _ Hj) as [y Hy]. specialize (Hs j y Hy). fold c in Hs.
      destruct (N.leb_spec (c j) (rstart rel)); [|done]. destruct (N.leb_spec (rend rel) (c (S j))); [|done]. by destruct Hs. }
    rewrite last_filter_none.
    + assert (List.filter (fun i => (kid_start (tchildren (erase g)) i <=? rstart rel)%N && (rend rel <=? kid_start (tchildren (erase g)) (S i))%N) (seq 0 (length (gchildren g))) = []) as ->; [|done].
      destruct (List.filter _ _) as [|j l] eqn:E; [done|]. assert (In j (j :: l)) as Hj by (by left). rewrite <- E in Hj.
      apply filter_In in Hj as [[_ Hj]%in_seq Hf]. rewrite !Hc, Hnone in Hf; done.
    + intros j [_ Hj]%in_seq. rewrite !Hc, Hnone by done. done.
Qed.
Lemma sim_at_range h T Z G (z : hpos) m t k cs o e a b :
  simH h T Z G -> z ∈ Z -> T !! z.2.1 = Some (m, t) -> tsub t z.2.2 = Some (Node k cs) -> trange t z.2.2 = Some (o, e) -> (a <= b)%N ->
  if (o <=? a)%N then
    wp (h_child_or_token_at_range env z.1 (TR a b))
       (fun y h' => exists Zn, got z.2.1 ((fun i => z.2.2 ++ [i]) <$> at_range cs (a - o) (b - o)) y Zn /\ simH h' T (Zn ++ Z) G) h
  else (h_child_or_token_at_range env z.1 (TR a b) h).1 = Err Panic.
Proof using Henv.
  intros HS Hz HT Ht Hr Hab. destruct (simH_alive _ _ _ _ _ HS Hz) as (r&m'&cz&Hl&HT'&Hcz&Hm&Hsub). rewrite HT in HT'. injection HT' as <- ->.
  pose proof HS as [Hi HZ]. pose proof Hi as (K&R&Hs&Ho&_). destruct (inv_loc_tree _ _ _ _ _ _ Hi Hl) as (cur&cz'&Hc&Hcz'&Hg&Hw&Hv).
  assert (cz' = cz) as -> by congruence. rewrite (crange_trange _ Hw _ _ Hc) in Hr. unfold crange in Hr. injection Hr as Ho' _.
  unfold h_child_or_token_at_range.
  assert (Hoff : forall (Q : N -> heap -> Prop), Q o h -> wp (h_offset z.1) Q h).
  { intros Q HQ. eapply wp_offset; [done|done|exact Hv|]. by rewrite Ho'. }
  destruct (N.leb_spec o a) as [Hle|Hlt].
  - apply wp_bind. apply Hoff. apply wp_bind. eapply (wp_lift _ (TR (a - o) (b - o))).
    { unfold range_sub. simpl. by rewrite (proj2 (N.leb_le _ _) Hle). }
    eapply (sim_down env Henv _ (fun cs => at_range cs (a - o) (b - o)) h T Z G z m _ k cs); try done. intros g Hwg Eg.
    assert (Hgn : gis_node g = true) by (by destruct g).
    pose proof (at_range_spec g (TR (a - o) (b - o)) Hwg Hgn ltac:(unfold range_ok; simpl; lia)) as Hat. rewrite Eg in Hat. simpl in Hat.
    pose proof (child_at_range_spec g (TR (a - o) (b - o)) Hwg ltac:(unfold range_ok; simpl; lia)) as Hsp.
    assert (child_at_range (GNode 0 0 0 (gchildren g)) (TR (a - o) (b - o)) = child_at_range g (TR (a - o) (b - o))) as -> by done.
    rewrite <- Hat. destruct (child_at_range g _) as [[[i ro] gg]|]; [|done]. split; [|done].
    intros j ch [= <- <-]. apply Hsp.
  - pose proof (Hoff (fun x h' => x = o /\ h' = h) ltac:(done)) as Hw'. apply wp_ok in Hw' as (?&?&E&->&->).
    unfold mbind, hm_bind. rewrite E. unfold lift, range_sub. simpl. by rewrite (proj2 (N.leb_gt _ _) Hlt).
Qed.

(** ** Equality of handles *)
Lemma sim_eq h T Z G (a b : hpos) m1 t1 m2 t2 x y ra rb :
  simH h T Z G -> a ∈ Z -> b ∈ Z ->
  T !! a.2.1 = Some (m1, t1) -> tsub t1 a.2.2 = Some x -> trange t1 a.2.2 = Some ra ->
  T !! b.2.1 = Some (m2, t2) -> tsub t2 b.2.2 = Some y -> trange t2 b.2.2 = Some rb ->
  wp (h_eq a.1 b.1) (fun r h' => h' = h /\ (a.2 = b.2 -> r = true) /\ (r = true -> x = y /\ ra = rb)) h.
Proof.
  intros HS Ha Hb Ta Xa Ra Tb Xb Rb.
  destruct (simH_alive _ _ _ _ _ HS Ha) as (r1&m1'&ca&Hla&HTa&Hca&_&Hsa). rewrite Ta in HTa. injection HTa as <- ->.
  destruct (simH_alive _ _ _ _ _ HS Hb) as (r2&m2'&cb&Hlb&HTb&Hcb&_&Hsb). rewrite Tb in HTb. injection HTb as <- ->.
  destruct HS as [Hi HZ]. pose proof Hi as (K&R&Hs&Ho&_).
  destruct (inv_loc_tree _ _ _ _ _ _ Hi Hla) as (cua&ca'&Hcua&Hca'&Hga&Hwa&Hva). assert (ca' = ca) as -> by congruence.
  destruct (inv_loc_tree _ _ _ _ _ _ Hi Hlb) as (cub&cb'&Hcub&Hcb'&Hgb&Hwb&Hvb). assert (cb' = cb) as -> by congruence.
  eapply wp_eq; [done|exact Hva|exact Hvb|]. split; [done|].
  rewrite (crange_trange _ Hwa _ _ Hcua) in Ra. injection Ra as <-. rewrite (crange_trange _ Hwb _ _ Hcub) in Rb. injection Rb as <-.
  rewrite Xa in Hsa. rewrite Xb in Hsb. injection Hsa as ->. injection Hsb as ->. split.
  - intros E. assert (r1 = r2) as ->. { destruct HZ as [_ H2]. apply (H2 a b); [done|done|done|done|]. by rewrite E. }
    assert (cua = cub) as -> by (rewrite E in Hcua; congruence). unfold c_eqb. by rewrite Nat.eqb_refl, N.eqb_refl.
  - unfold c_eqb. rewrite Hga, Hgb. intros [E1%Nat.eqb_eq E2%N.eqb_eq]%andb_prop.
    assert (Heq : o_grn ca = o_grn cb). { apply (on_coh _ _ _ _ Ho); [by eapply owned_live|by eapply owned_live|done]. }
    rewrite Heq. split; [done|]. unfold crange. rewrite Hga, Hgb, Heq. congruence.
Qed.

(** ** Detach *)
(** proof device, no counterpart in the code *)
Definition map_pos (f : nat * pos -> nat * pos) (Z : list hpos) : list hpos := map (fun z => (z.1, f z.2)) Z.
Lemma map_pos_fst f Z : map fst (map_pos f Z) = map fst Z.
Proof. unfold map_pos. rewrite map_map. by apply map_ext. Qed.
Lemma elem_of_map_pos f Z a : a ∈ map_pos f Z <-> exists z, a = (z.1, f z.2) /\ z ∈ Z.
Proof. apply elem_of_map. Qed.
Lemma mut_at_root c K x r p m : shape c K -> loc c x r p -> (o_mut <$> c !! r) = Some m -> (o_mut <$> c !! x) = Some m.
Proof.
  intros Hs Hl Hr. destruct (loc_gsub _ _ Hs _ _ _ Hl) as (cr&cx&Hcr&_&Hcx&_&Hm). rewrite Hcr in Hr. rewrite Hcx. simpl in *. congruence.
Qed.
Lemma root_mut c K x r p m : shape c K -> loc c x r p -> (o_mut <$> c !! x) = Some m -> (o_mut <$> c !! r) = Some m.
Proof.
  intros Hs Hl Hr. destruct (loc_gsub _ _ Hs _ _ _ Hl) as (cr&cx&Hcr&_&Hcx&_&Hm). rewrite Hcx in Hr. rewrite Hcr. simpl in *. congruence.
Qed.

Lemma sim_detach h T Z G (z : hpos) t (p : pos) i x :
  simH h T Z G -> z ∈ Z -> T !! z.2.1 = Some (true, t) -> z.2.2 = p ++ [i] -> tsub t z.2.2 = Some x ->
  wp (h_detach env z.1)
     (fun _ h' => simH h' (<[z.2.1:=(true, tdelete_child t p i)]> T ++ [(true, x)])
                       (map_pos (detach_handle z.2.1 (length T) p i) Z) G) h.
Proof using Henv.
  intros HS Hz HT Ez Ht. destruct (simH_alive _ _ _ _ _ HS Hz) as (r&m'&cz&Hl&HT'&Hcz&Hm&Hsub). rewrite HT in HT'. injection HT' as <- ->.
  rewrite Ht in Hsub. injection Hsub as ->. destruct HS as [Hi HZ]. pose proof Hi as (K&R&Hs&_). pose proof HZ as [H1 H2].
  destruct (o_par cz) as [q|] eqn:Hp; [|destruct (loc_inv_root _ _ _ _ _ Hl Hcz Hp) as [_ E]; rewrite Ez in E; by destruct p].
  destruct (loc_inv_child _ _ _ _ _ _ Hl Hcz Hp) as (p'&Ep&Hlq). rewrite Ez in Ep. apply app_inj_tail in Ep as [<- ->].
  rewrite Ez in Hl. eapply wp_mono; [eapply wp_detach; [done|done|exact Hcz|done|exact Hl]|].
  intros [] h' [Hi' Hd]. split; [by rewrite map_pos_fst|]. pose proof Hi' as (K'&R'&Hs'&_).
  assert (Hlz : z.2.1 < length T) by (by eapply simZ_lt).
  assert (Hxr : z.1 <> r).
  { intros E. destruct (loc_root_core _ _ _ _ Hl) as (cr&Hr&Hpr). rewrite <- E in Hr. congruence. }
  assert (Hgx : gr (pc (P h)) z.1 = o_grn cz) by (unfold gr; by rewrite Hcz).
  set (T' := <[z.2.1:=_]> T ++ _).
  assert (HT1 : T' !! z.2.1 = Some (true, tdelete_child (erase (gr (pc (P h)) r)) p (o_idx cz))).
  { unfold T'. rewrite lookup_app_l by (by rewrite insert_length). by apply list_lookup_insert. }
  assert (HT2 : T' !! length T = Some (true, erase (o_grn cz))).
  { unfold T'. rewrite lookup_app_r by (by rewrite insert_length). by rewrite insert_length, Nat.sub_diag. }
  assert (HT3 : forall j v, j <> z.2.1 -> T !! j = Some v -> T' !! j = Some v).
  { intros j v Hj Hv. unfold T'. apply lookup_app_l_Some. by rewrite list_lookup_insert_ne. }
  (* where each handle is afterwards *)
  assert (Hw : forall y, y ∈ Z -> exists ry, loc (pc (P h)) y.1 ry y.2.2 /\ (y.2.1 = z.2.1 <-> ry = r) /\
     if decide (ry = r) then
       match pos_removed p (o_idx cz) y.2.2 with
       | inl s => loc (pc (P h')) y.1 z.1 s /\ detach_handle z.2.1 (length T) p (o_idx cz) y.2 = (length T, s) /\
                  erase (gr (pc (P h')) z.1) = erase (o_grn cz) /\ (o_mut <$> pc (P h') !! z.1) = Some true
       | inr s => loc (pc (P h')) y.1 r s /\ detach_handle z.2.1 (length T) p (o_idx cz) y.2 = (z.2.1, s) /\
                  erase (gr (pc (P h')) r) = tdelete_child (erase (gr (pc (P h)) r)) p (o_idx cz) /\ (o_mut <$> pc (P h') !! r) = Some true
       end
     else loc (pc (P h')) y.1 ry y.2.2 /\ detach_handle z.2.1 (length T) p (o_idx cz) y.2 = y.2 /\ same_root (pc (P h)) (pc (P h')) ry).
  { intros y Hy. destruct (H1 y Hy) as (ry&my&Hly&HTy&Hmy). exists ry. split; [done|].
    assert (Hiff : y.2.1 = z.2.1 <-> ry = r). { apply (H2 y z); try done. by rewrite Ez. }
    split; [done|]. pose proof (Hd y.1 ltac:(apply elem_of_map; eauto) _ _ Hly) as Hdy. unfold detach_handle.
    destruct (decide (ry = r)) as [E|E].
    - apply Hiff in E. rewrite (proj2 (Nat.eqb_eq _ _) E). destruct (pos_removed p (o_idx cz) y.2.2) as [s|s].
      + destruct Hdy as (?&Hg&?). split_and!; try done. by rewrite Hg, Hgx.
      + naive_solver.
    - destruct (Nat.eqb_spec y.2.1 z.2.1) as [E'|_]; [by apply Hiff in E'|]. naive_solver. }
  split.
  - intros a (y&->&Hy)%elem_of_map_pos. destruct (Hw y Hy) as (ry&Hly&Hiff&Hcase). destruct (H1 y Hy) as (ry'&my&Hly'&HTy&Hmy).
    destruct (loc_fun _ _ _ _ Hly _ _ Hly') as [-> _]. cbn [fst snd]. unfold rel1. cbn [fst snd]. destruct (decide (ry = r)) as [->|E].
    + destruct (pos_removed p (o_idx cz) y.2.2) as [s|s]; destruct Hcase as (Hl'&->&Hg'&Hm'); cbn [fst snd].
      * exists z.1, true. split_and!; [done|by rewrite Hg'|by eapply mut_at_root].
      * exists r, true. split_and!; [done|by rewrite Hg'|by eapply mut_at_root].
    + destruct Hcase as (Hl'&->&Hg'&Hm'). exists ry, my. split_and!; [done| |].
      * rewrite Hg'. apply HT3; [naive_solver|done].
      * eapply mut_at_root; [done|exact Hl'|]. rewrite Hm'. by eapply root_mut.
  - intros a b ra rb (y&->&Hy)%elem_of_map_pos (w&->&Hw')%elem_of_map_pos. cbn [fst snd]. intros Hla Hlb.
    destruct (Hw y Hy) as (ry&Hly&Hiff&Hcase). destruct (Hw w Hw') as (rw&Hlw&Hiff'&Hcase').
    assert (Hroot : forall u ru s, loc (pc (P h)) u ru s -> ru <> z.1).
    { intros u ru s Hlu ->. destruct (loc_root_core _ _ _ _ Hlu) as (?&?&?). congruence. }
    pose proof (Hroot _ _ _ Hly) as N1. pose proof (Hroot _ _ _ Hlw) as N2.
    pose proof (simZ_lt _ _ _ _ HZ Hy) as L1. pose proof (simZ_lt _ _ _ _ HZ Hw') as L2.
    pose proof (H2 y w ry rw Hy Hw' Hly Hlw) as Hyw.
    destruct (decide (ry = r)) as [Ey|Ey]; [destruct (pos_removed p (o_idx cz) y.2.2)|];
      destruct Hcase as (Hl1&E1&_); rewrite E1 in Hla |- *; cbn [fst snd] in Hla |- *;
      destruct (loc_fun _ _ _ _ Hla _ _ Hl1) as [<- _];
      (destruct (decide (rw = r)) as [Ew|Ew]; [destruct (pos_removed p (o_idx cz) w.2.2)|]);
      destruct Hcase' as (Hl2&E2&_); rewrite E2 in Hlb |- *; cbn [fst snd] in Hlb |- *;
      destruct (loc_fun _ _ _ _ Hlb _ _ Hl2) as [<- _];
      split; intros; subst; try done; try lia; try (exfalso; naive_solver); try naive_solver.
Qed.
(** a root stays *)
Lemma sim_detach_root h T Z G (z : hpos) t :
  simH h T Z G -> z ∈ Z -> T !! z.2.1 = Some (true, t) -> z.2.2 = [] -> wp (h_detach env z.1) (fun _ h' => simH h' T Z G) h.
Proof.
  intros HS Hz HT Ez. destruct (simH_alive _ _ _ _ _ HS Hz) as (r&m'&cz&Hl&HT'&Hcz&Hm&_). rewrite HT in HT'. injection HT' as <- ->.
  destruct (o_par cz) as [q|] eqn:Hp.
  { destruct (loc_inv_child _ _ _ _ _ _ Hl Hcz Hp) as (p'&Ep&_). rewrite Ez in Ep. by destruct p'. }
  destruct HS as [Hi HZ]. eapply wp_mono; [by eapply wp_detach_root|]. intros [] h' E. split; [|by rewrite E]. unfold inv. by rewrite E.
Qed.
(** refused before anything happens *)
Lemma sim_detach_imm h T Z G z t :
  simH h T Z G -> z ∈ Z -> T !! z.2.1 = Some (false, t) -> h_detach env z.1 h = (Err Panic, h).
Proof.
  intros HS Hz HT. destruct (simH_alive _ _ _ _ _ HS Hz) as (r&m'&cz&Hl&HT'&Hcz&Hm&_). rewrite HT in HT'. injection HT' as <- ->.
  rewrite P_pc in Hcz. destruct (hn h !! z.1) as [n|] eqn:Hn; [|done]. injection Hcz as <-.
  unfold h_detach, mbind, hm_bind, h_get. rewrite Hn. simpl in Hm. by rewrite Hm.
Qed.

(** ** Attach *)
Lemma sim_attach_root h T Z G (q x : hpos) i t tc k cs :
  simH h T Z G -> q ∈ Z -> x ∈ Z -> T !! q.2.1 = Some (true, t) -> T !! x.2.1 = Some (true, tc) -> x.2.2 = [] ->
  q.2.1 <> x.2.1 -> tsub t q.2.2 = Some (Node k cs) ->
  let t' := tinsert_child t q.2.2 i tc in
  if (i <=? length cs) && (blen (ttext t') <=? u32_max)%N
  then wp (h_attach_data env q.1 i x.1)
          (fun _ h' => simH h' (<[q.2.1:=(true, t')]> T) (map_pos (attach_handle q.2.1 x.2.1 q.2.2 i) Z) G) h
  else (h_attach_data env q.1 i x.1 h).1 = Err Panic.
Proof using Henv.
  intros HS Hq Hx HT HTc Ex Hne Ht t'. destruct (simH_alive _ _ _ _ _ HS Hq) as (r&m'&cq&Hl&HT'&Hcq&Hm&Hsub). rewrite HT in HT'. injection HT' as <- ->.
  destruct (simH_alive _ _ _ _ _ HS Hx) as (rx&m'&cx&Hlx&HT'&Hcx&Hmx&_). rewrite HTc in HT'. injection HT' as <- ->.
  rewrite Ex in Hlx. destruct (loc_fun_root _ _ _ Hlx) as [-> Hpx]. specialize (Hpx _ Hcx).
  rewrite Ht in Hsub. injection Hsub as Eg. destruct HS as [Hi HZ]. pose proof Hi as (K&R&Hs&_). pose proof HZ as [H1 H2].
  assert (Hrx : r <> x.1). { intros E. apply Hne. apply (H2 q x r x.1); try done. by rewrite Ex. }
  assert (Hgx : gr (pc (P h)) x.1 = o_grn cx) by (unfold gr; by rewrite Hcx).
  assert (Hlen : length (kids (o_grn cq)) = length cs).
  { pose proof (f_equal (fun u => length (tchildren u)) Eg) as E. simpl in E. rewrite E. unfold kids. rewrite map_length. symmetry. apply length_erase_children. }
  pose proof (wpx_attach_data env q.1 i x.1 h (map fst Z) G cq cx r q.2.2 Henv Hi Hcq Hcx Hm Hmx Hpx) as Hwp.
  assert (gis_node (o_grn cq) = true) as Hnode by (by destruct (o_grn cq)).
  specialize (Hwp Hnode Hl Hrx). rewrite Hlen in Hwp. rewrite <- Hgx in Hwp. fold t' in Hwp.
  destruct ((i <=? length cs) && (blen (ttext t') <=? u32_max)%N) eqn:Hb.
  2:{ unfold wpx in Hwp. destruct (h_attach_data env q.1 i x.1 h) as [[?|e] h']; simpl.
      - destruct Hwp as (_&?&?&_). apply andb_false_iff in Hb as [Hb|Hb]; [apply Nat.leb_gt in Hb|apply N.leb_gt in Hb]; lia.
      - by destruct Hwp as [-> _]. }
  apply andb_true_iff in Hb as [Hb1%Nat.leb_le Hb2%N.leb_le].
  eapply (wp_mono _ _ _ _ (wp_wpx _ _ _ _ Hwp _)). Unshelve.
  2:{ intros e [_ [?|?]]; lia. }
  intros [] h' (Hi'&_&_&Hd). split; [by rewrite map_pos_fst|]. pose proof Hi' as (K'&R'&Hs'&_).
  pose proof (simZ_lt _ _ _ _ HZ Hq) as Hlq.
  assert (HT1 : <[q.2.1:=(true, t')]> T !! q.2.1 = Some (true, t')) by (by apply list_lookup_insert).
  assert (HT3 : forall j v, j <> q.2.1 -> T !! j = Some v -> <[q.2.1:=(true, t')]> T !! j = Some v).
  { intros j v Hj Hv. by rewrite list_lookup_insert_ne. }
  assert (Hw : forall y, y ∈ Z -> exists ry, loc (pc (P h)) y.1 ry y.2.2 /\ (y.2.1 = q.2.1 <-> ry = r) /\ (y.2.1 = x.2.1 <-> ry = x.1) /\
     if decide (ry = r \/ ry = x.1) then
       exists s, loc (pc (P h')) y.1 r s /\ attach_handle q.2.1 x.2.1 q.2.2 i y.2 = (q.2.1, s) /\
         erase (gr (pc (P h')) r) = t' /\ (o_mut <$> pc (P h') !! r) = Some true
     else loc (pc (P h')) y.1 ry y.2.2 /\ attach_handle q.2.1 x.2.1 q.2.2 i y.2 = y.2 /\ same_root (pc (P h)) (pc (P h')) ry).
  { intros y Hy. destruct (H1 y Hy) as (ry&my&Hly&HTy&Hmy). exists ry. split; [done|].
    assert (Hiff : y.2.1 = q.2.1 <-> ry = r) by (by apply (H2 y q)).
    assert (Hiff' : y.2.1 = x.2.1 <-> ry = x.1). { apply (H2 y x); try done. by rewrite Ex. }
    split_and!; [done|done|]. pose proof (Hd y.1 ltac:(apply elem_of_map; eauto) _ _ Hly) as Hdy. unfold attach_handle.
    destruct (decide (ry = r \/ ry = x.1)) as [E|E].
    - destruct Hdy as (Hl'&Hg'&Hm'). eexists. split_and!; [exact Hl'| |done|done]. destruct E as [E|E].
      + rewrite (proj2 (Nat.eqb_eq _ _) (proj2 Hiff E)), decide_True by done. done.
      + destruct (Nat.eqb_spec y.2.1 q.2.1) as [E'|_]; [apply Hiff in E'; congruence|].
        rewrite (proj2 (Nat.eqb_eq _ _) (proj2 Hiff' E)), decide_False by congruence. done.
    - destruct (Nat.eqb_spec y.2.1 q.2.1); [naive_solver|]. destruct (Nat.eqb_spec y.2.1 x.2.1); [naive_solver|]. naive_solver. }
  split.
  - intros a (y&->&Hy)%elem_of_map_pos. destruct (Hw y Hy) as (ry&Hly&Hiff&Hiff'&Hcase). destruct (H1 y Hy) as (ry'&my&Hly'&HTy&Hmy).
    destruct (loc_fun _ _ _ _ Hly _ _ Hly') as [-> _]. unfold rel1. cbn [fst snd]. destruct (decide (ry = r \/ ry = x.1)) as [E|E].
    + destruct Hcase as (s&Hl'&->&Hg'&Hm'). cbn [fst snd]. exists r, true. split_and!; [done|by rewrite Hg'|by eapply mut_at_root].
    + destruct Hcase as (Hl'&->&Hg'&Hm'). exists ry, my. split_and!; [done| |].
      * rewrite Hg'. apply HT3; [naive_solver|done].
      * eapply mut_at_root; [done|exact Hl'|]. rewrite Hm'. by eapply root_mut.
  - intros a b ra rb (y&->&Hy)%elem_of_map_pos (w&->&Hw')%elem_of_map_pos. cbn [fst snd]. intros Hla Hlb.
    destruct (Hw y Hy) as (ry&Hly&I1&I2&Hcase). destruct (Hw w Hw') as (rw&Hlw&I3&I4&Hcase').
    pose proof (H2 y w ry rw Hy Hw' Hly Hlw) as Hyw.
    destruct (decide (ry = r \/ ry = x.1)) as [Ey|Ey]; [destruct Hcase as (s1&Hl1&E1&_)|destruct Hcase as (Hl1&E1&_)];
      rewrite E1 in Hla |- *; cbn [fst snd] in Hla |- *; destruct (loc_fun _ _ _ _ Hla _ _ Hl1) as [<- _];
      (destruct (decide (rw = r \/ rw = x.1)) as [Ew|Ew]; [destruct Hcase' as (s2&Hl2&E2&_)|destruct Hcase' as (Hl2&E2&_)]);
      rewrite E2 in Hlb |- *; cbn [fst snd] in Hlb |- *; destruct (loc_fun _ _ _ _ Hlb _ _ Hl2) as [<- _];
      try done; naive_solver.
Qed.

(** ** to_next_sibling *)
(** every node is there for the sake of a handle *)
Lemma below_handle h H G : inv h H G -> forall n y cy r p, gsize (o_grn cy) < n -> pc (P h) !! y = Some cy -> loc (pc (P h)) y r p ->
  exists u s, u ∈ H /\ loc (pc (P h)) u r (p ++ s).
Proof.
  intros (K&R&Hs&Ho&Hl&Hc). induction n as [|n IH]; intros y cy r p Hn Hy Hly; [lia|].
  destruct (decide (y ∈ H)) as [Hin|Hin]; [exists y, []; by rewrite app_nil_r|].
  destruct (K y) as [|w l] eqn:HK.
  { exfalso. pose proof (ct_live _ _ _ _ _ Hc y ltac:(eauto)) as Hd. rewrite HK in Hd.
    assert (cnt y H = 0) as E. { destruct (cnt y H) eqn:E; [done|]. exfalso. apply Hin, cnt_pos. lia. }
    rewrite E in Hd. by specialize (Hd eq_refl). }
  assert (w ∈ K y) as Hw by (rewrite HK; left). apply (sh_K _ _ Hs) in Hw as (cw&Hw&Hpw).
  pose proof (sh_gsize _ _ Hs _ _ _ _ Hw Hpw Hy).
  destruct (IH w cw r (p ++ [o_idx cw]) ltac:(lia) Hw) as (u&s&Hu&Hlu).
  { by eapply loc_child. }
  exists u, (o_idx cw :: s). split; [done|]. by rewrite <- app_assoc in Hlu.
Qed.
Lemma childless_root c K u x p : shape c K -> length (K x) = 0 -> loc c u x p -> u = x.
Proof.
  intros Hs HK Hl. induction Hl as [|u cu q x p Hcu Hpu Hq IH]; [done|].
  specialize (IH HK). subst q. assert (u ∈ K x) as Hin by (apply (sh_K _ _ Hs); eauto).
  destruct (K x); [by apply elem_of_nil in Hin|done].
Qed.
Lemma sole_handle h T Z G (z : hpos) cz :
  simH h T (z :: Z) G -> pc (P h) !! z.1 = Some cz -> o_par cz = None ->
  (pr (P h) !! z.1 = Some 1 <-> forall y, y ∈ Z -> y.2.1 <> z.2.1).
Proof.
  intros [Hi HZ] Hcz Hp. pose proof Hi as (K&R&Hs&Ho&Hl&Hc). pose proof HZ as [H1 H2].
  destruct (H1 z ltac:(left)) as (r&m&Hlz&_). destruct (loc_inv_root _ _ _ _ _ Hlz Hcz Hp) as [-> Ez].
  rewrite (ct_rc _ _ _ _ _ Hc z.1 ltac:(eauto)). cbn [map]. rewrite cnt_cons, bool_decide_eq_true_2 by done. split.
  - intros [= E] y Hy Ey. destruct (H1 y ltac:(by right)) as (ry&my&Hly&_).
    assert (ry = z.1) as -> by (apply (H2 y z); [by right|left|done|done|done]).
    apply (childless_root _ K) in Hly; [|done|lia]. assert (0 < cnt z.1 (map fst Z)) by (apply cnt_pos, elem_of_map; eauto). lia.
  - intros Hno. f_equal. assert (cnt z.1 (map fst Z) = 0) as ->.
    { destruct (cnt z.1 (map fst Z)) eqn:E; [done|]. exfalso. assert (z.1 ∈ map fst Z) as (y&Ey&Hy)%elem_of_map by (apply cnt_pos; lia).
      apply (Hno y Hy). destruct (H1 y ltac:(by right)) as (ry&my&Hly&_). apply (H2 y z ry z.1); [by right|left|done|done|].
      rewrite <- Ey in Hly. by destruct (loc_fun _ _ _ _ Hlz _ _ Hly). }
    destruct (K z.1) as [|w l] eqn:HK; [done|]. exfalso.
    assert (w ∈ K z.1) as Hw by (rewrite HK; left). apply (sh_K _ _ Hs) in Hw as (cw&Hw&Hpw).
    destruct (below_handle _ _ _ Hi _ w cw z.1 ([] ++ [o_idx cw]) (Nat.lt_succ_diag_r _) Hw) as (u&s&Hu&Hlu).
    { eapply loc_child; [done..|]. by eapply loc_root. }
    cbn [map] in Hu. apply elem_of_cons in Hu as [->|Hu].
    { destruct (loc_fun _ _ _ _ Hlz _ _ Hlu) as [_ E]. rewrite Ez in E. done. }
    apply elem_of_map in Hu as (y&->&Hy). apply (Hno y Hy). destruct (H1 y ltac:(by right)) as (ry&my&Hly&_).
    apply (H2 y z ry z.1); [by right|left|done|done|]. by destruct (loc_fun _ _ _ _ Hlu _ _ Hly).
Qed.

Lemma simZ_replace c c' K K' T Z (z : hpos) r y p :
  shape c K -> shape c' K' -> simZ c T (z :: Z) -> (forall b, b ∈ Z -> same_at c c' b.1) -> loc c z.1 r z.2.2 -> loc c' y r p -> same_root c c' r ->
  simZ c' T ((y, (z.2.1, p)) :: Z).
Proof.
  intros Hs Hs' HZ Hsame Hl Hy [Hg Hm]. pose proof HZ as [H1 H2].
  assert (simZ c' T Z) as [H1' H2'].
  { eapply simZ_same; [exact Hsame|]. eapply simZ_sub; [|exact HZ]. intros; by right. }
  assert (Hz : forall b rb, b ∈ Z -> loc c' b.1 rb b.2.2 -> (z.2.1 = b.2.1 <-> r = rb)).
  { intros b rb Hb Hlb. destruct (H1 b ltac:(by right)) as (rb'&mb&Hlb'&_). destruct (Hsame b Hb _ _ Hlb') as (Hlb2&_).
    destruct (loc_fun _ _ _ _ Hlb _ _ Hlb2) as [-> _]. apply (H2 z b); [left|by right|done|done]. }
  split.
  - intros a [->|Ha]%elem_of_cons; [|by apply H1']. destruct (H1 z ltac:(left)) as (r'&m&Hl'&HT&Hmz).
    destruct (loc_fun _ _ _ _ Hl _ _ Hl') as [-> _]. exists r, m. cbn [fst snd]. split_and!; [done|by rewrite Hg|].
    eapply mut_at_root; [done|exact Hy|]. rewrite Hm. by eapply root_mut.
  - intros a b ra rb [->|Ha]%elem_of_cons [->|Hb]%elem_of_cons Hla Hlb; cbn [fst snd] in *.
    + destruct (loc_fun _ _ _ _ Hla _ _ Hlb) as [-> _]. done.
    + destruct (loc_fun _ _ _ _ Hla _ _ Hy) as [-> _]. by apply Hz.
    + destruct (loc_fun _ _ _ _ Hlb _ _ Hy) as [-> _]. pose proof (Hz a ra Ha Hla). naive_solver.
    + by apply H2'.
Qed.

(** cursor.rs:763-793, 1203-1240: either of the two *)
Definition h_to_next_any {bld : build} (tok : bool) (x : id) : hm (option id) :=
  if tok then h_to_next_sibling_or_token env x else h_to_next_sibling env x.
Lemma sim_to_next (tok : bool) h T Z G (z : hpos) m t o :
  simH h T (z :: Z) G -> T !! z.2.1 = Some (m, t) -> s_nav (if tok then NNextSiblingOrToken else NNextSibling) t z.2.2 = SOk o ->
  wp (h_to_next_any tok z.1)
     (fun y h' => if decide (m = false /\ z.2.2 = [] /\ Forall (fun u : hpos => u.2.1 <> z.2.1) Z)
        then o = None /\ y = None /\ h' = h
        else exists Zn, got z.2.1 o y Zn /\ simH h' T (Zn ++ Z) G) h.
Proof using Henv.
  intros HS HT Hn.
  (* what the two versions select *)
  set (ssel := fun i (cs : list (N * green)) => if tok then enumerate cs !! (i + 1) else find_map sel_node (drop (i + 1) (enumerate cs))).
  set (sel := if tok then Some else sel_node).
  set (Pg := if tok then (any : green -> bool) else gis_node). set (Pt := if tok then (any : tree -> bool) else is_node).
  assert (Hsel : selects sel Pg) by (unfold sel, Pg; destruct tok; [apply selects_any|apply sel_node_selects]).
  assert (Hss : forall i cs, ssel i cs = find_map sel (drop (i + 1) (enumerate cs))).
  { intros i cs. unfold ssel, sel. destruct tok; [apply sel_next_tok|done]. }
  assert (Hag : agrees Pg Pt) by (unfold Pg, Pt; destruct tok; [done|apply agrees_node]).
  assert (Ho' : sideways t z.2.2 (fun cs i => first_at Pt cs (S i)) = o).
  { unfold Pt. destruct tok; simpl in Hn; [by injection Hn|]. unfold for_node in Hn. destruct (tsub t z.2.2) as [[]|]; try done. by injection Hn. }
  assert (h_to_next_any tok z.1 = h_to_next env (h_sibling_opt env ssel) sel z.1) as -> by (unfold h_to_next_any, ssel, sel; by destruct tok).
  destruct (simH_alive _ _ _ _ z HS ltac:(left)) as (r&m'&cz&Hl&HT'&Hcz&Hm&Hsub). rewrite HT in HT'. injection HT' as <- ->.
  pose proof HS as [Hi HZ]. pose proof Hi as (K&R&Hs&Ho&Hlk&Hc). cbn [map] in Hi.
  destruct (o_par cz) as [q|] eqn:Hp.
  - destruct (loc_inv_child _ _ _ _ _ _ Hl Hcz Hp) as (p&Ep&Hlq). rewrite Ep in Hl, Hsub, Ho'. clear Hn.
    destruct (sh_child _ _ Hs _ _ _ Hcz Hp) as (cq&rel&Hq&_&Hch&_).
    eapply wp_mono; [eapply (wp_to_next_child env ssel sel Pg Henv Hss Hsel z.1); [exact Hi|exact Hl|exact Hlq|exact Hq|eauto]|].
    intros y h' (Hi'&Hsame&Hat&Hroot). rewrite decide_False by (rewrite Ep; intros (_&E&_); by destruct p).
    assert (sideways (erase (gr (pc (P h)) r)) (p ++ [o_idx cz]) (fun cs i => first_at Pt cs (S i))
            = (fun j => p ++ [j]) <$> first_at Pt (tchildren (erase (o_grn cq))) (S (o_idx cz))) as E.
    { unfold sideways. rewrite last_snoc, removelast_last.
      destruct (loc_gsub _ _ Hs _ _ _ Hlq) as (cr&cq'&Hr&_&Hq'&Hg&_). assert (cq' = cq) as -> by congruence.
      unfold gr. rewrite Hr. by rewrite erase_gsub, Hg. }
    rewrite E in Ho'. clear E. destruct (sel_first_ok sel Pg Pt (o_grn cq) (S (o_idx cz)) Hsel Hag) as [_ Hf].
    rewrite Hss, Nat.add_1_r in Hat. rewrite <- Hf in Ho'. clear Hf. pose proof Hi' as (K'&R'&Hs'&_).
    assert (HsameZ : forall b, b ∈ Z -> same_at (pc (P h)) (pc (P h')) b.1).
    { intros b Hb. apply Hsame, elem_of_map. eauto. }
    destruct (find_map sel (drop (S (o_idx cz)) (enumerate (gchildren (o_grn cq))))) as [[j ch]|]; simpl in *.
    + destruct Hat as (x&->&Hx). subst o. exists [(x, (z.2.1, p ++ [j]))]. split; [done|]. split; [done|].
      eapply simZ_replace; [exact Hs|exact Hs'|exact HZ|exact HsameZ| |exact Hx|by apply Hroot]. by rewrite Ep.
    + subst y o. exists []. split; [done|]. split; [done|]. eapply simZ_same; [exact HsameZ|]. eapply simZ_sub; [|exact HZ]. intros; by right.
  - destruct (loc_inv_root _ _ _ _ _ Hl Hcz Hp) as [-> Ez]. rewrite Ez in Ho'. simpl in Ho'. subst o.
    eapply wp_mono; [eapply (wp_to_next_root env ssel sel Hss z.1); [exact Hi|exact Hcz|done]|].
    intros y h' (->&Hsame&Hcase).
    pose proof (sole_handle _ _ _ _ _ _ HS Hcz Hp) as Hsole.
    destruct (decide (m = false /\ z.2.2 = [] /\ Forall (fun u : hpos => u.2.1 <> z.2.1) Z)) as [(Em&_&HF)|HF].
    + rewrite bool_decide_eq_true_2 in Hcase; [by rewrite Hm, Em in Hcase|]. apply Hsole. intros y Hy. rewrite Forall_forall in HF. by apply HF.
    + exists []. split; [done|]. destruct (bool_decide (pr (P h) !! z.1 = Some 1) && negb (o_mut cz)) eqn:Eb.
      * exfalso. apply andb_true_iff in Eb as [Eb%bool_decide_eq_true Em]. apply HF. split_and!; [rewrite <- Hm; by destruct (o_mut cz)|done|].
        apply Forall_forall. intros y Hy. by apply Hsole.
      * split; [done|]. eapply simZ_same; [intros b Hb; apply Hsame, elem_of_map; eauto|]. eapply simZ_sub; [|exact HZ]. intros; by right.
Qed.
End step.
