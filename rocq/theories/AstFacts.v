(** * Facts about locations and typed accessors *)
From Verif Require Export Ast.
Local Open Scope N_scope.

Lemma find_succ_step succ f fuel c :
  find_next (successors_next succ) f (S fuel) (Some c) =
  (nx ← succ c; b ← f c; if b : bool then Ok (Some c) else find_next (successors_next succ) f fuel nx).
Proof. simpl. by destruct (succ c). Qed.

Section ptr.
Context (root : green) (Hwf : wfg root).
Notation T := (erase root).

Lemma covers_iff p c a e i :
  cursor_at root p = Some c ->
  child_covers T p a e i <->
  exists ch, gchildren (c_green c) !! i = Some ch /\
    c_offset c + cstart (c_green c) i <= a /\ e <= c_offset c + cstart (c_green c) (S i).
Proof using Hwf.
  intros Hc. unfold child_covers. split.
  - intros (ra&Hra&H1&H2). destruct (cursor_at_is_Some root (p ++ [i])) as [d Hd].
    { unfold trange in Hra. destruct (tsub T (p ++ [i])); [by eexists|done]. }
    rewrite (crange_trange root Hwf _ _ Hd) in Hra. injection Hra as <-.
    destruct (child_cursor root Hwf _ _ _ _ Hc Hd) as (Ho&_&_&He). unfold crange in *. simpl in *.
    destruct (cursor_at_snoc_inv _ _ _ _ Hd) as (c1&ch&Hc1&Hch&_). assert (c1 = c) as -> by congruence.
    exists ch. split; [done|]. lia.
  - intros (ch&Hch&H1&H2). pose proof (cursor_at_child _ _ _ _ _ Hc Hch) as Hd.
    eexists. split; [by apply (crange_trange root Hwf)|].
    destruct (child_cursor root Hwf _ _ _ _ Hc Hd) as (Ho&_&_&He). unfold crange, range_contains in *. simpl in *. lia.
Qed.
Lemma ends_at_iff p c a i ch :
  cursor_at root p = Some c -> gchildren (c_green c) !! i = Some ch ->
  ends_at T (p ++ [i]) a <-> c_offset c + cstart (c_green c) (S i) = a.
Proof using Hwf.
  intros Hc Hch. pose proof (cursor_at_child _ _ _ _ _ Hc Hch) as Hd.
  destruct (child_cursor root Hwf _ _ _ _ Hc Hd) as (Ho&_&_&He). unfold ends_at.
  rewrite (crange_trange root Hwf _ _ Hd). unfold crange. simpl in *. split.
  - intros (ra&[= <-]&H). simpl in H. lia.
  - intros H. eexists. split; [done|]. simpl. lia.
Qed.
Lemma child_or_token_at_range_descends p c r :
  cursor_at root p = Some c -> range_ok r -> c_offset c <= rstart r ->
  exists o, child_or_token_at_range c r = Ok (o ≫= fun i => cursor_at root (p ++ [i])) /\
  match o with
  | Some i => descends T p (rstart r) (rend r) i
  | None => forall i, ~ child_covers T p (rstart r) (rend r) i
  end.
Proof using Hwf.
  intros Hc Hr Hs. unfold child_or_token_at_range, range_sub. unfold range_ok in Hr.
  destruct (N.leb_spec (c_offset c) (rstart r)); [|lia]. cbn [mbind res_bind].
  pose proof (child_at_range_spec (c_green c) (TR (rstart r - c_offset c) (rend r - c_offset c))
                (cursor_at_wfg root Hwf _ _ Hc) ltac:(unfold range_ok; simpl; lia)) as Hsp.
  destruct (child_at_range _ _) as [[[i off] g]|].
  - destruct Hsp as (Hch&H1&H2&H3&H4). simpl in H1, H2, H3, H4.
    rewrite (mk_child_at root Hwf _ _ _ _ Hc Hch).
    pose proof (cursor_at_child _ _ _ _ _ Hc Hch) as Hd. exists (Some i). simpl. rewrite Hd. split; [done|].
    split; [apply (covers_iff _ _ _ _ _ Hc); exists (off, g); split; [done|lia]|].
    intros j Hj He. apply (covers_iff _ _ _ _ _ Hc) in Hj as (ch&Hj&Hj1&Hj2).
    apply (ends_at_iff _ _ _ _ _ Hc Hj) in He.
    assert (j <= i)%nat as Hji.
    { destruct (decide (j <= i)%nat); [done|]. specialize (H3 j ch Hj ltac:(lia) ltac:(lia) ltac:(lia)). lia. }
    split; [|done]. apply (ends_at_iff _ _ _ _ _ Hc Hch).
    destruct (decide (j = i)) as [->|]; [done|]. pose proof (cstart_mono (c_green c) (S j) i ltac:(lia)).
    destruct H4 as [H4|H4]; [lia|lia|lia|lia].
  - exists None. split; [done|]. intros i (ch&Hch&Hi)%(covers_iff _ _ _ _ _ Hc). simpl in Hsp. apply (Hsp i ch Hch). lia.
Qed.
Lemma descends_unique p c a e i j :
  cursor_at root p = Some c -> a <= e -> descends T p a e i -> descends T p a e j -> i = j.
Proof using Hwf.
  intros Hc Hae.
  assert (forall i j, descends T p a e i -> descends T p a e j -> ~ (i < j)%nat) as Haux.
  { clear i j. intros i j [Hi Hi'] [Hj Hj'] Hij.
    pose proof Hi as (ci&Hci&Hi1&Hi2)%(covers_iff _ _ _ _ _ Hc).
    pose proof Hj as (cj&Hcj&Hj1&Hj2)%(covers_iff _ _ _ _ _ Hc).
    pose proof (cstart_mono (c_green c) (S i) j ltac:(lia)).
    assert (ends_at T (p ++ [i]) a) as Hei by (apply (ends_at_iff _ _ _ _ _ Hc Hci); lia).
    destruct (Hj' i Hi Hei) as [Hej _]. destruct (Hi' j Hj Hej). lia. }
  intros Hi Hj. pose proof (Haux i j Hi Hj). pose proof (Haux j i Hj Hi). lia.
Qed.
Lemma search_path_snoc_inv a e p i :
  search_path T a e (p ++ [i]) -> search_path T a e p /\ descends T p a e i /\ exists s, tsub T (p ++ [i]) = Some s /\ is_node s = true.
Proof using Type.
  intros H. inversion H as [Hn|p' i' H1 H2 H3 Hp]; [by destruct p|]. apply app_inj_tail in Hp as [-> ->]. done.
Qed.
Lemma search_path_prefix a e p q : search_path T a e (p ++ q) -> search_path T a e p.
Proof using Type.
  induction q as [|i q IH] using rev_ind; [by rewrite app_nil_r|]. rewrite app_assoc.
  intros [H _]%search_path_snoc_inv. by apply IH.
Qed.

Context (kfr : kind -> kind) (ptr : node_ptr) (Hr : range_ok (ptr_range ptr)).
Notation A := (rstart (ptr_range ptr)).
Notation E := (rend (ptr_range ptr)).
Notation loc := (located T (fun k => kfr k = ptr_kind ptr) A E).

Lemma ptr_matches_at p c :
  cursor_at root p = Some c -> c_is_node c = true ->
  exists b, ptr_matches kfr ptr c = Ok b /\ (b = true <-> loc p).
Proof using Hwf.
  clear Hr. intros Hc Hn. unfold ptr_matches. rewrite (c_text_range_at root Hwf _ _ Hc). cbn [mbind res_bind].
  eexists. split; [done|]. rewrite andb_true_iff, range_eqb_eq, N.eqb_eq.
  unfold located. rewrite (crange_trange root Hwf _ _ Hc), (cursor_at_tsub _ _ _ Hc). unfold crange. split.
  - intros [H1 H2]. rewrite <- H1. simpl. split; [done|]. eexists. split; [done|].
    rewrite erase_is_node, erase_kind. done.
  - intros [[= H1 H2] (s&[= <-]&H3&H4)]. rewrite erase_kind in H4. split; [|done].
    destruct (ptr_range ptr) as [a e]. simpl in *. by subst.
Qed.
Lemma ptr_find_at fuel p c :
  cursor_at root p = Some c -> c_is_node c = true -> (gsize (c_green c) < fuel)%nat -> c_offset c <= A ->
  search_path T A E p ->
  exists o, find_next (successors_next (ptr_succ (ptr_range ptr))) (ptr_matches kfr ptr) fuel (Some c) =
      Ok (o ≫= cursor_at root) /\
    match o with
    | Some q => ancestor_or_self p q /\ search_path T A E q /\ loc q /\
        (forall q', ancestor_or_self p q' -> proper_ancestor q' q -> ~ loc q')
    | None => forall q, ancestor_or_self p q -> search_path T A E q -> ~ loc q
    end.
Proof using Hwf Hr.
  revert p c. induction fuel as [|fuel IH]; intros p c Hc Hn Hf Ho Hsp; [lia|].
  destruct (child_or_token_at_range_descends p c (ptr_range ptr) Hc Hr Ho) as (o&Hco&Hd).
  assert (Hps : ptr_succ (ptr_range ptr) c = Ok (match o ≫= (fun i => cursor_at root (p ++ [i])) with Some d => if c_is_node d then Some d else None | None => None end)).
  { unfold ptr_succ. by rewrite Hco. }
  setoid_rewrite find_succ_step. rewrite Hps. cbn [mbind res_bind].
  destruct (ptr_matches_at p c Hc Hn) as (b&->&Hb). cbn [mbind res_bind]. destruct b.
  { exists (Some p). simpl. rewrite Hc. split; [done|]. split; [by exists []; rewrite app_nil_r|]. split; [done|].
    split; [by apply Hb|]. intros q' [r1 ->] (i&r2&Hx). exfalso. apply (f_equal length) in Hx. rewrite !app_length in Hx. simpl in Hx. lia. }
  assert (~ loc p) as Hnl by (intros Hx%Hb; done).
  (* how a longer path continues *)
  assert (Hcont : forall q, ancestor_or_self p q -> q <> p -> search_path T A E q ->
     exists i r, o = Some i /\ q = p ++ i :: r /\ search_path T A E (p ++ [i])).
  { intros q [r ->] Hne Hq. destruct r as [|j r]; [by rewrite app_nil_r in Hne|].
    replace (p ++ j :: r) with ((p ++ [j]) ++ r) in Hq by (by rewrite <- app_assoc).
    apply search_path_prefix in Hq. pose proof Hq as (_&Hdj&_)%search_path_snoc_inv.
    destruct o as [i|]; [|exfalso; by apply (Hd j), Hdj].
    assert (i = j) as -> by (by apply (descends_unique p c A E i j Hc Hr)). eauto. }
  assert (Hend : o = None \/ (exists i d, o = Some i /\ cursor_at root (p ++ [i]) = Some d /\ c_is_node d = false) ->
     exists o', find_next (successors_next (ptr_succ (ptr_range ptr))) (ptr_matches kfr ptr) fuel None = Ok (o' ≫= cursor_at root) /\
       match o' with
       | Some q => ancestor_or_self p q /\ search_path T A E q /\ loc q /\
           (forall q', ancestor_or_self p q' -> proper_ancestor q' q -> ~ loc q')
       | None => forall q, ancestor_or_self p q -> search_path T A E q -> ~ loc q
       end).
  { intros Hx. destruct fuel as [|fuel']; [pose proof (gsize_pos (c_green c)); lia|]. exists None. split; [done|].
    intros q Hpq Hq. destruct (decide (q = p)) as [->|Hne]; [done|].
    destruct (Hcont q Hpq Hne Hq) as (i&r&Hi&->&Hpi). destruct Hx as [Hx|(i'&d&Hi'&Hdc&Hdn)]; [congruence|].
    assert (i = i') as <- by congruence. apply search_path_snoc_inv in Hpi as (_&_&s&Hs&Hsn).
    rewrite (cursor_at_tsub _ _ _ Hdc) in Hs. injection Hs as <-. rewrite erase_is_node in Hsn.
    unfold c_is_node in Hdn. congruence. }
  destruct o as [i|]; simpl; [|by apply Hend; left].
  pose proof Hd as [(ch&Hch&Hc1&Hc2)%(covers_iff _ _ _ _ _ Hc) _].
  pose proof (cursor_at_child _ _ _ _ _ Hc Hch) as Hdc. rewrite Hdc. simpl.
  set (d := CChild c i (c_offset c + ch.1) ch.2) in *.
  destruct (c_is_node d) eqn:En.
  2:{ apply Hend. right. exists i, d. done. }
  destruct (child_cursor root Hwf _ _ _ _ Hc Hdc) as (Hod&_&Hsz&_).
  destruct (IH (p ++ [i]) d Hdc En) as (o'&Ho'&Hres).
  { lia. } { rewrite Hod. lia. }
  { constructor; [done|done|]. exists (erase (c_green d)). rewrite erase_is_node. split; [by apply cursor_at_tsub|done]. }
  exists o'. split; [exact Ho'|].
  assert (Hlong : forall q, ancestor_or_self p q -> q <> p -> search_path T A E q -> ancestor_or_self (p ++ [i]) q).
  { intros q Hpq Hne Hq. destruct (Hcont q Hpq Hne Hq) as (i'&r&[= ->]&->&_). exists r. by rewrite <- app_assoc. }
  destruct o' as [q|].
  - destruct Hres as ((r&Hq)&Hsq&Hl&Hmin). rewrite <- app_assoc in Hq. split; [by exists (i :: r)|]. split; [done|]. split; [done|].
    intros q' Hpq' Hq'. destruct (decide (q' = p)) as [->|Hne]; [done|]. apply Hmin; [|done].
    apply Hlong; [done|done|]. destruct Hq' as (j&r'&Hq'). rewrite Hq' in Hsq. by eapply search_path_prefix.
  - intros q Hpq Hsq. destruct (decide (q = p)) as [->|Hne]; [done|]. apply Hres; [|done]. by apply Hlong.
Qed.
Lemma try_to_node_at :
  gis_node root = true ->
  exists o, try_to_node kfr ptr (new_root root) = Ok (o ≫= cursor_at root) /\
    match o with
    | Some q => search_path T A E q /\ loc q /\ (forall q', proper_ancestor q' q -> ~ loc q')
    | None => forall q, search_path T A E q -> ~ loc q
    end.
Proof using Hwf Hr.
  intros Hn. destruct (ptr_find_at (S (gsize root)) [] (CRoot root)) as (o&Ho&H); [done|done|simpl; lia|simpl; lia|constructor|].
  exists o. split; [exact Ho|]. destruct o as [q|].
  - destruct H as (_&H1&H2&H3). split; [done|]. split; [done|]. intros q' Hq'. apply H3; [by exists q'|done].
  - intros q Hq. apply H; [by exists q|done].
Qed.
(** for a non-empty range every node that covers it is on the search path *)
Lemma nonempty_search_path p c :
  A < E -> cursor_at root p = Some c -> c_is_node c = true -> range_contains (crange c) (A, E) -> search_path T A E p.
Proof using Hwf.
  intros Hne. revert c. induction p as [|i p IH] using rev_ind; intros c Hc Hn Hrc; [constructor|].
  destruct (cursor_at_prefix _ _ _ _ Hc) as [c0 H0].
  pose proof (crange_descendant root Hwf _ _ _ _ H0 Hc) as [H1 H2]. destruct Hrc as [H3 H4]. simpl in *.
  assert (search_path T A E p) as Hp.
  { apply (IH c0 H0).
    - destruct (cursor_at_snoc_inv _ _ _ _ Hc) as (c1&ch&Hc1&Hch&_). assert (c1 = c0) as -> by congruence.
      unfold c_is_node. by destruct (c_green c0).
    - unfold range_contains, crange in *. simpl in *. lia. }
  constructor; [done| |].
  - destruct (child_cursor root Hwf _ _ _ _ H0 Hc) as (Ho&_&_&He). split.
    + exists (crange c). split; [by apply crange_trange|done].
    + intros j (chj&Hchj&Hj1&Hj2)%(covers_iff _ _ _ _ _ H0) Hje. apply (ends_at_iff _ _ _ _ _ H0 Hchj) in Hje. exfalso. lia.
  - exists (erase (c_green c)). split; [by apply cursor_at_tsub|]. by rewrite erase_is_node.
Qed.
Lemma located_on_path p : A < E -> loc p -> search_path T A E p.
Proof using Hwf.
  intros Hne [Hra (s&Hs&Hsn&_)]. destruct (cursor_at_is_Some root p) as [c Hc]; [by eexists|].
  apply (nonempty_search_path p c Hne Hc).
  - rewrite (cursor_at_tsub _ _ _ Hc) in Hs. injection Hs as <-. by rewrite erase_is_node in Hsn.
  - rewrite (crange_trange root Hwf _ _ Hc) in Hra. assert (crange c = (A, E)) as -> by congruence. unfold range_contains. simpl. lia.
Qed.
End ptr.

(** ** Iterator adaptors *)
Lemma yields_det {S A} (next : iter S A) s l l' : yields next s l -> yields next s l' -> l = l'.
Proof.
  intros H. revert l'. induction H as [s s' H1 _|s a s' l H1 _ IH]; intros l' H'; inversion H' as [? s2 H2 _|? a2 s2 l2 H2 H3]; subst; try congruence.
  assert (a = a2) as -> by congruence. assert (s' = s2) as -> by congruence. f_equal. by apply IH.
Qed.
Lemma filter_map_next_yields {S A B} (next : iter S A) (f : A -> option B) s l fuel (P : S -> Prop) :
  (forall s o s', next s = Ok (o, s') -> P s -> P s') ->
  yields next s l -> P s -> (length l < fuel)%nat ->
  exists s' l', filter_map_next next f fuel s = Ok (find_map f l, s') /\ yields next s' l' /\ P s' /\
    filter_map f l = match find_map f l with Some b => b :: filter_map f l' | None => [] end /\
    (find_map f l = None -> next s' = Ok (None, s') /\ l' = []) /\ (length l' <= length l)%nat /\
    (find_map f l <> None -> (length l' < length l)%nat).
Proof.
  intros HP Hy. revert fuel. induction Hy as [s s' H1 H2|s a s' l H1 Hy IH]; intros fuel Hs Hf; (destruct fuel as [|fuel]; [simpl in Hf; lia|]).
  - exists s', []. simpl. rewrite H1. simpl. split; [done|]. split; [by eapply yields_nil|]. split; [by apply (HP _ _ _ H1)|]. done.
  - simpl. rewrite H1. simpl. destruct (f a) as [b|] eqn:E.
    + exists s', l. split; [done|]. split; [done|]. split; [by apply (HP _ _ _ H1)|]. split; [done|]. split; [done|]. split; lia.
    + destruct (IH fuel) as (s2&l2&H3&H4&H5&H6&H7&H8&H9); [by apply (HP _ _ _ H1)|simpl in Hf; lia|]. exists s2, l2. split; [done|].
      split; [done|]. split; [done|]. split; [done|]. split; [done|]. split; [lia|]. intros Hn. specialize (H9 Hn). lia.
Qed.
Lemma node_children_next_parent it o it' : node_children_next it = Ok (o, it') -> ci_parent it' = ci_parent it.
Proof.
  unfold node_children_next. destruct (if negb (ci_init it) then _ else _) as [nx|]; [|done]. simpl. by intros [= _ <-].
Qed.
Lemma ast_children_yields {T} (cast : cursor -> option T) it l :
  yields node_children_next it l -> (length l <= length (gchildren (c_green (ci_parent it))))%nat ->
  yields (ast_children_next cast) it (filter_map cast l).
Proof.
  remember (length l) as n eqn:Hn. revert it l Hn. induction (lt_wf n) as [n _ IH]; intros it l -> Hy Hl.
  destruct (filter_map_next_yields node_children_next cast it l (S (length (gchildren (c_green (ci_parent it)))))
              (fun s => ci_parent s = ci_parent it)) as (s'&l'&H1&H2&H3&H4&H5&H6&H7); [|done|done|lia|].
  { intros s o s' Hs%node_children_next_parent. congruence. }
  rewrite H4. destruct (find_map cast l) as [b|] eqn:E.
  - eapply yields_cons; [unfold ast_children_next, find_map_next; exact H1|].
    apply (IH (length l')); [by apply H7|done|done|]. rewrite H3. lia.
  - destruct (H5 eq_refl) as [H8 ->].
    apply (yields_nil _ it s'); [unfold ast_children_next, find_map_next; exact H1|].
    unfold ast_children_next, find_map_next. simpl. rewrite H8. done.
Qed.
Lemma filter_map_length {A B} (f : A -> option B) l : (length (filter_map f l) <= length l)%nat.
Proof. induction l as [|x l IH]; simpl; [lia|]. destruct (f x); simpl; lia. Qed.
