(** * Loops over children on the heap *)
From Verif Require Export HeapStep HeapCycle.

(** ** The iterators *)
Section loop.
Context (env : henv) (Henv : henv_ok env).

(** cursor.rs:1386-1398, 1448-1460 as a list walk, a proof device *)
Definition h_kids_next {bld : build} (tok : bool) (it : hchildren) : hm (option id * hchildren) :=
  if tok then h_element_children_next env it else h_node_children_next env it.

(** an iterator over the children of the node at [hp], the indices still to come and the handles it owns *)
(** proof device, no counterpart in the code *)
Inductive itrel (tok : bool) (cs : list tree) (hp : nat * pos) : hchildren -> list nat -> list hpos -> Prop :=
| it_new q : itrel tok cs hp (HC q None false) (sel_from (kid_sel tok) cs 0) [(q, hp)]
| it_at q n j : itrel tok cs hp (HC q (Some n) true) (sel_from (kid_sel tok) cs (S j)) [(q, hp); (n, (hp.1, hp.2 ++ [j]))]
| it_end q : itrel tok cs hp (HC q None true) [] [(q, hp)].

Lemma sideways_snoc t p j k cs f : tsub t p = Some (Node k cs) -> sideways t (p ++ [j]) f = (fun i => p ++ [i]) <$> f cs j.
Proof. intros Ht. unfold sideways. by rewrite last_snoc, removelast_last, Ht. Qed.
Lemma tsub_kid t p k cs j : tsub t p = Some (Node k cs) -> tsub t (p ++ [j]) = cs !! j.
Proof. intros Ht. rewrite tsub_app, Ht. simpl. by destruct (cs !! j). Qed.

(** what the iterator has handed out: each one is the child it stands for *)
Lemma sim_kids_next (tok : bool) h T Z G hp m t k cs it js Zi :
  simH h T (Zi ++ Z) G -> itrel tok cs hp it js Zi -> T !! hp.1 = Some (m, t) -> tsub t hp.2 = Some (Node k cs) ->
  (forall n j, hc_next it = Some n -> (n, (hp.1, hp.2 ++ [j])) ∈ Zi -> exists x, cs !! j = Some x /\ kid_sel tok x = true) ->
  wp (h_kids_next tok it)
     (fun r h' => match js with
        | [] => r.1 = None /\ exists Zi', itrel tok cs hp r.2 [] Zi' /\ hc_next r.2 = None /\ simH h' T (Zi' ++ Z) G
        | j :: js' => exists x Zi', r.1 = Some x /\ itrel tok cs hp r.2 js' Zi' /\ r.2 = HC (hc_parent it) (Some x) true /\
            js' = sel_from (kid_sel tok) cs (S j) /\ Zi' = [(hc_parent it, hp); (x, (hp.1, hp.2 ++ [j]))] /\
            (exists y, cs !! j = Some y /\ kid_sel tok y = true) /\
            simH h' T ((x, (hp.1, hp.2 ++ [j])) :: Zi' ++ Z) G
        end) h.
Proof using Henv.
  intros HS Hit HT Ht Hok.
  (* the answer of the navigation step, then the clone *)
  assert (Hfin : forall q lo o Zn h1, js = sel_from (kid_sel tok) cs lo -> hc_parent it = q ->
    got hp.1 ((fun i => hp.2 ++ [i]) <$> first_at (kid_sel tok) cs lo) o Zn -> simH h1 T (Zn ++ (q, hp) :: Z) G ->
    wp (o' ← h_clone_opt o; mret (o', HC (hc_parent it) o true))
     (fun r h' => match js with
        | [] => r.1 = None /\ exists Zi', itrel tok cs hp r.2 [] Zi' /\ hc_next r.2 = None /\ simH h' T (Zi' ++ Z) G
        | j :: js' => exists x Zi', r.1 = Some x /\ itrel tok cs hp r.2 js' Zi' /\ r.2 = HC (hc_parent it) (Some x) true /\
            js' = sel_from (kid_sel tok) cs (S j) /\ Zi' = [(hc_parent it, hp); (x, (hp.1, hp.2 ++ [j]))] /\
            (exists y, cs !! j = Some y /\ kid_sel tok y = true) /\
            simH h' T ((x, (hp.1, hp.2 ++ [j])) :: Zi' ++ Z) G
        end) h1).
  { intros q lo o Zn h1 Ejs Eq Hgot HS1. rewrite Ejs, Eq, sel_from_step. pose proof (first_at_is (kid_sel tok) cs lo) as Hfa.
    destruct (first_at (kid_sel tok) cs lo) as [j|] eqn:Ef; destruct o as [x|]; simpl in Hgot; try done; subst Zn.
    - apply wp_bind, wp_bind.
      eapply wp_mono; [apply (sim_clone h1 T ([(x, (hp.1, hp.2 ++ [j]))] ++ (q, hp) :: Z) G (x, (hp.1, hp.2 ++ [j])) HS1); left|].
      intros y h2 (->&HS2). apply wp_ret, wp_ret. simpl. eexists x, _. split_and!; try done; [apply it_at|by destruct Hfa as (_&?&_)|].
      eapply simH_perm; [|exact HS2]. simpl. rewrite (Permutation_swap (q, hp)). done.
    - apply wp_bind, wp_ret, wp_ret. simpl. split; [done|]. eexists. split_and!; [apply it_end|done|exact HS1]. }
  assert (h_kids_next tok it =
    (nx ← (if negb (hc_init it) then h_nav env (if tok then NFirstChildOrToken else NFirstChild) (hc_parent it)
        else match hc_next it with Some next => h_to_next_any env tok next | None => mret None end);
     o ← h_clone_opt nx; mret (o, HC (hc_parent it) nx true))) as -> by (unfold h_kids_next, h_to_next_any; by destruct tok).
  apply wp_bind. destruct Hit as [q|q n j|q]; cbn [hc_init hc_parent hc_next negb] in *.
  - eapply wp_mono; [eapply (sim_nav env Henv _ _ _ _ _ (q, hp)); [exact HS|left|exact HT|]|].
    { instantiate (1 := (fun i => hp.2 ++ [i]) <$> first_at (kid_sel tok) cs 0). cbn [fst snd]. unfold kid_sel.
      destruct tok; simpl; unfold down; by rewrite Ht. }
    intros o h1 (Zn&Hgot&HS1). by eapply Hfin.
  - destruct (Hok n j eq_refl ltac:(right; left)) as (xj&Hxj&Hsel).
    eapply wp_mono.
    + eapply (sim_to_next env Henv tok h T ((q, hp) :: Z) G (n, (hp.1, hp.2 ++ [j])) m t).
      * eapply simH_perm; [|exact HS]. simpl. apply Permutation_swap.
      * exact HT.
      * instantiate (1 := (fun i => hp.2 ++ [i]) <$> first_at (kid_sel tok) cs (S j)). cbn [fst snd]. unfold kid_sel in *.
        destruct tok; simpl; rewrite (sideways_snoc _ _ _ _ _ _ Ht); [done|]. unfold for_node. rewrite (tsub_kid _ _ _ _ _ Ht), Hxj.
        by destruct xj.
    + intros o h1 Hres. cbv beta in Hres. rewrite decide_False in Hres by (cbn [fst snd]; intros (_&E&_); by destruct (hp.2)).
      destruct Hres as (Zn&Hgot&HS1). by eapply Hfin.
  - apply wp_ret. apply wp_bind, wp_ret, wp_ret. simpl. split; [done|]. eexists. split_and!; [apply it_end|done|exact HS].
Qed.

(** ** Detaching inside the loop *)
(** the first of the indices [js], counted from [i], that [sel] wants *)
(** proof device, no counterpart in the code *)
Fixpoint pick (sel : nat -> bool) (i : nat) (js : list nat) : option nat :=
  match js with [] => None | j :: js' => if sel i then Some j else pick sel (S i) js' end.

Lemma sim_children_drop h T Z G hp it (n : option (nat * pos)) :
  simH h T ((hc_parent it, hp) :: match hc_next it, n with Some x, Some pn => [(x, pn)] | _, _ => [] end ++ Z) G ->
  (is_Some (hc_next it) <-> is_Some n) ->
  wp (h_children_drop it) (fun _ h' => simH h' T Z G) h.
Proof.
  intros HS Hn. apply wp_bind. eapply wp_mono; [by eapply (sim_drop _ _ _ _ (hc_parent it, hp))|]. intros [] h1 HS1.
  destruct (hc_next it) as [x|], n as [pn|]; simpl in *.
  - by eapply (sim_drop _ _ _ _ (x, pn)).
  - destruct Hn as [Hn _]. destruct Hn as [? ?]; [eauto|done].
  - by apply wp_skip.
  - by apply wp_skip.
Qed.

Lemma detach_handle_self n new p j : detach_handle n new p j (n, p) = (n, p).
Proof. unfold detach_handle. simpl. by rewrite Nat.eqb_refl, pos_removed_self. Qed.
Lemma detach_handle_kid n new p j : detach_handle n new p j (n, p ++ [j]) = (new, []).
Proof. unfold detach_handle. simpl. by rewrite Nat.eqb_refl, pos_removed_child, Nat.eqb_refl. Qed.

Lemma sim_detach_loop (tok : bool) sel T Z G hp t k cs fuel : forall i it js Zi h,
  simH h T (Zi ++ Z) G -> itrel tok cs hp it js Zi -> T !! hp.1 = Some (true, t) -> tsub t hp.2 = Some (Node k cs) ->
  (forall n j, hc_next it = Some n -> (n, (hp.1, hp.2 ++ [j])) ∈ Zi -> exists x, cs !! j = Some x /\ kid_sel tok x = true) ->
  length js < fuel ->
  wp (h_detach_loop env (h_kids_next tok) sel fuel i it)
     (fun _ h' => match pick sel i js with
        | Some j => exists x, cs !! j = Some x /\
            simH h' (<[hp.1:=(true, tdelete_child t hp.2 j)]> T ++ [(true, x)]) (map_pos (detach_handle hp.1 (length T) hp.2 j) Z) G
        | None => simH h' T Z G end) h.
Proof using Henv.
  induction fuel as [|fuel IH]; intros i it js Zi h HS Hit HT Ht Hok Hfuel; [lia|].
  cbn [h_detach_loop]. apply wp_bind. eapply wp_mono; [by eapply sim_kids_next|].
  intros [o it1] h1. cbn [fst snd]. destruct js as [|j js]; cbn [pick].
  - intros (->&Zi1&Hit1&Hnone&HS1). eapply (sim_children_drop _ _ _ _ hp it1 None).
    + rewrite Hnone. simpl. inversion Hit1; subst; try done; simpl in *; done.
    + rewrite Hnone. split; by intros [? ?].
  - intros (x&Zi1&->&Hit1&Eit1&Ejs&EZ1&(y&Hy&Hsel)&HS1). apply wp_bind. simpl in Hfuel. destruct (sel i).
    + eapply wp_mono.
      { eapply (sim_detach env Henv _ _ _ _ (x, (hp.1, hp.2 ++ [j])) t hp.2 j y); [exact HS1|left|exact HT|done|].
        cbn [fst snd]. by rewrite (tsub_kid _ _ _ _ _ Ht). }
      intros [] h2 HS2. cbn [fst snd] in HS2. subst Zi1. unfold map_pos in HS2. simpl in HS2. fold (map_pos (detach_handle hp.1 (length T) hp.2 j) Z) in HS2.
      destruct hp as [n p]. cbn [fst snd] in *. rewrite detach_handle_self, detach_handle_kid in HS2.
      apply wp_bind. eapply wp_mono; [by eapply (sim_drop _ _ _ _ (x, (length T, [])))|]. intros [] h3 HS3.
      (* the rest of the loop ends at once: the handle kept by the iterator has no sibling *)
      destruct fuel as [|fuel]; [lia|]. cbn [h_detach_loop]. subst it1.
      assert (h_kids_next tok (HC (hc_parent it) (Some x) true) =
        (nx ← h_to_next_any env tok x; o ← h_clone_opt nx; mret (o, HC (hc_parent it) nx true))) as -> by (unfold h_kids_next, h_to_next_any; by destruct tok).
      set (T2 := <[n:=(true, tdelete_child t p j)]> T ++ [(true, y)]) in *.
      assert (HTn : T2 !! length T = Some (true, y)).
      { unfold T2. rewrite lookup_app_r by (by rewrite insert_length). by rewrite insert_length, Nat.sub_diag. }
      apply wp_bind, wp_bind. eapply wp_mono.
      { eapply (sim_to_next env Henv tok h3 T2 ((hc_parent it, (n, p)) :: map_pos (detach_handle n (length T) p j) Z) G (x, (length T, [])) true y None).
        - eapply simH_perm; [|exact HS3]. apply Permutation_swap.
        - exact HTn.
        - cbn [fst snd]. unfold kid_sel in Hsel. destruct tok; simpl; [done|]. unfold for_node. simpl. by destruct y. }
      intros nx h4 Hres. cbv beta in Hres. rewrite decide_False in Hres by (by intros (?&_)). destruct Hres as (Zn&Hgot&HS4).
      destruct nx; simpl in Hgot; [done|]. subst Zn. apply wp_bind, wp_ret, wp_ret. simpl.
      apply wp_bind. eapply wp_mono; [by eapply (sim_drop _ _ _ _ (hc_parent it, (n, p)))|]. intros [] h5 HS5. apply wp_skip. eauto.
    + apply wp_skip. apply wp_bind. eapply wp_mono; [by eapply (sim_drop _ _ _ _ (x, (hp.1, hp.2 ++ [j])))|]. intros [] h2 HS2.
      eapply IH; [exact HS2|exact Hit1|done|done| |lia]. subst it1 Zi1. intros n j' _ Hin.
      apply elem_of_cons in Hin as [E|[E|E]%elem_of_cons]; [| |by apply elem_of_nil in E].
      * exfalso. apply (f_equal (fun u : hpos => length u.2.2)) in E. cbn [fst snd] in E. rewrite app_length in E. simpl in E. unfold pos in *. lia.
      * injection E as _ E1. apply app_inj_tail in E1 as [_ ->]. eauto.
Qed.

(** ** Iterators that look ahead *)
(** cursor.rs:1368-1371, 1427-1433: [children().by_kind(m)], [children_with_tokens().by_kind(m)] *)
Definition h_by_kind_new {bld : build} (tok : bool) (m : kind -> bool) (p : id) : hm (option id) :=
  q ← h_clone p;
  nx ← h_nav env (if tok then NFirstChildOrTokenByKind m else NFirstChildByKind m) q;
  _ ← h_drop q;
  mret nx.
(** cursor.rs:1408-1412, 1470-1474: [next]; the sibling is looked up before the element is handed out *)
Definition h_by_kind_next {bld : build} (tok : bool) (m : kind -> bool) (next : option id) : hm (option id * option id) :=
  match next with
  | Some x => nx ← h_nav env (if tok then NNextSiblingOrTokenByKind m else NNextSiblingByKind m) x; mret (Some x, nx)
  | None => mret (None, None)
  end.
(** [for child in it { child.detach() }] *)
(** a client: [for c in node.children().by_kind(m) { c.detach() }], cursor.rs:1368-1383, 1406-1413 *)
Fixpoint h_by_kind_detach_loop {bld : build} (tok : bool) (m : kind -> bool) (fuel : nat) (next : option id) : hm unit :=
  match fuel with
  | 0 => lift (Err Diverge)
  | S fuel' =>
      '(o, next) ← h_by_kind_next tok m next;
      match o with
      | Some child =>
          _ ← h_detach env child;
          _ ← h_drop child;
          h_by_kind_detach_loop tok m fuel' next
      | None => hskip
      end
  end.
End loop.
