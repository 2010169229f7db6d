(** * [replace_with] on the node heap

    [SyntaxNode::replace_with] and [SyntaxToken::replace_with] as programs over the calls of
    Client.v, and what they do to any tree a client can hold. *)
From Verif Require Export AstHeap.
Local Open Scope nat_scope.

(** the green element that a call has made *)
(** helper: the green element the call returned *)
Definition p_gslot (x : ans) : script nat := match an_green x with Some g => PRet g | None => PPanic end.
(** cursor.rs:653-659 [green] and [into_owned] *)
Definition p_green (s : nat) : script nat := POp (OGreen s) p_gslot.
(** green/node.rs:126-140, green/token.rs:92-106: reading a green element *)
Definition p_green_look (g : nat) : script look := POp (OGreenLook g) (fun x => match an_obs x with Some l => PRet l | None => PPanic end).
(** arc.rs:164-196, 409-414 [drop] *)
Definition p_green_drop (g : nat) : script unit := POp (OGreenDrop g) (fun _ => PRet ()).
(** node.rs:159-165 [GreenNodeData::replace_child] *)
Definition p_green_replace (i e g : nat) : script nat := POp (OGreenReplace i e g) p_gslot.

(** cursor.rs:614-626 [SyntaxNode::replace_with], [g] is the replacement, used up.  Here the
    parent's green node is cloned and dropped again where the code borrows it. *)
Fixpoint p_replace_with (fuel s g : nat) : script nat :=
  match fuel with
  | 0 => PDiverge
  | S fuel' =>
      l ← p_look s;
      r ← p_green_look g;
      _ ← p_assert (l_kind l =? l_kind r)%N;
      o ← p_nav NParent s;
      match o with
      | None => PRet g
      | Some parent =>
          pg ← p_green parent;
          new_parent ← p_green_replace (default 0 (l_index l)) g pg;
          _ ← p_green_drop pg;
          _ ← p_green_drop g;
          x ← p_replace_with fuel' parent new_parent;
          _ ← p_drop parent;
          PRet x
      end
  end.
(** cursor.rs:1007-1014 [SyntaxToken::replace_with] *)
Definition p_token_replace_with (fuel s g : nat) : script nat :=
  l ← p_look s;
  r ← p_green_look g;
  _ ← p_assert (l_kind l =? l_kind r)%N;
  o ← p_nav NParent s;
  parent ← p_unwrap o;
  pg ← p_green parent;
  new_parent ← p_green_replace (default 0 (l_index l)) g pg;
  _ ← p_green_drop pg;
  _ ← p_green_drop g;
  x ← p_replace_with fuel parent new_parent;
  _ ← p_drop parent;
  PRet x.

(** ** The calls on the specification *)
Section calls.
Context {A : Type} (E : err -> sst -> Prop) (Q : A -> sst -> Prop).
Lemma swp_look st s n m t p x (k : look -> script A) : holds st s n m t p x -> swp (k (look_at m t p x)) E Q st -> swp (p_look s ≫= k) E Q st.
Proof.
  intros (Hs&Ht&Hx) Hk. apply swp_bind. unfold p_look. cbn [swp s_step]. rewrite Hs. cbn [of_slot mbind sres_bind].
  rewrite (s_look_at _ _ _ _ _ _ Ht Hx). exact Hk.
Qed.
Lemma swp_green_look st g t (k : look -> script A) : s_greens st !! g = Some (Some t) ->
  swp (k (Look false None (tkind t) (0%N, blen (ttext t)) t)) E Q st -> swp (p_green_look g ≫= k) E Q st.
Proof. intros Hg Hk. apply swp_bind. unfold p_green_look. cbn [swp s_step]. rewrite Hg. exact Hk. Qed.
Lemma swp_assert (b : bool) st (k : unit -> script A) : (if b then swp (k ()) E Q st else E Panic st) -> swp (p_assert b ≫= k) E Q st.
Proof. intros H. by destruct b. Qed.
Lemma swp_parent st s n m t p x (k : option nat -> script A) : holds st s n m t p x ->
  swp (k (match p with [] => None | _ => Some (length (s_handles st)) end)) E Q
      (add_handle (match p with [] => None | _ => Some (@pair nat pos n (removelast p)) end) st) -> swp (p_nav NParent s ≫= k) E Q st.
Proof.
  intros (Hs&Ht&Hx) Hk. apply swp_bind. unfold p_nav. cbn [swp s_step]. rewrite Hs. cbn [of_slot mbind sres_bind fst snd]. rewrite Ht.
  cbn [s_nav mbind sres_bind swp s_ans an_slot]. rewrite filled_add. by destruct p.
Qed.
Lemma filled_green st t : filled (s_greens st) (s_greens (add_green t st)) = Some (length (s_greens st)).
Proof. unfold filled. simpl. by rewrite lookup_app_r, Nat.sub_diag by done. Qed.
Lemma swp_green st s n m t p x (k : nat -> script A) : holds st s n m t p x -> swp (k (length (s_greens st))) E Q (add_green x st) -> swp (p_green s ≫= k) E Q st.
Proof.
  intros (Hs&Ht&Hx) Hk. apply swp_bind. unfold p_green. cbn [swp s_step]. rewrite Hs. cbn [of_slot mbind sres_bind fst snd]. unfold s_elem. cbn [fst snd]. rewrite Ht, Hx.
  change (swp (p_gslot (s_ans st (add_green x st) None)) E (fun a => swp (k a) E Q) (add_green x st)). unfold p_gslot. cbn [s_ans an_green]. by rewrite filled_green.
Qed.
Lemma swp_green_replace st i e g r kd cs (k : nat -> script A) : s_greens st !! g = Some (Some (Node kd cs)) -> s_greens st !! e = Some (Some r) ->
  (if (blen (ttext (Node kd (<[i:=r]> cs))) <=? u32_max)%N then swp (k (length (s_greens st))) E Q (add_green (Node kd (<[i:=r]> cs)) st) else E Panic st) ->
  swp (p_green_replace i e g ≫= k) E Q st.
Proof.
  intros Hg He Hk. apply swp_bind. unfold p_green_replace. cbn [swp s_step]. rewrite Hg. cbn [of_slot mbind sres_bind is_node ill_unless]. rewrite He.
  cbn [of_slot mbind sres_bind tkind tchildren]. destruct (_ <=? _)%N; cbn [panic_unless mbind sres_bind]; [|exact Hk].
  unfold p_gslot. cbn [s_ans an_green]. by rewrite filled_green.
Qed.
(** specification or proof device, no counterpart in the code *)
Definition del_green (g : nat) (st : sst) : sst := SS (s_trees st) (s_handles st) (<[g:=None]> (s_greens st)) (s_leaked st).
Lemma swp_green_drop st g t (k : unit -> script A) : s_greens st !! g = Some (Some t) -> swp (k ()) E Q (del_green g st) -> swp (p_green_drop g ≫= k) E Q st.
Proof. intros Hg Hk. apply swp_bind. unfold p_green_drop. cbn [swp s_step]. by rewrite Hg. Qed.
Lemma swp_drop st s h (k : unit -> script A) : s_handles st !! s = Some (Some h) -> swp (k ()) E Q (del_handle s st) -> swp (p_drop s ≫= k) E Q st.
Proof. intros Hs Hk. apply swp_bind. unfold p_drop. cbn [swp s_step]. by rewrite Hs. Qed.
End calls.

(** ** What is left behind *)
(** [a] holds the green tree [t'], the replacement [g] has been used up, and all else is as
    in [st] *)
(** specification or proof device, no counterpart in the code *)
Definition replaced_in (st : sst) (g : nat) (t' : tree) (a : nat) (st' : sst) : Prop :=
  s_trees st' = s_trees st /\ s_leaked st' = s_leaked st /\ held st' ≡ₚ held st /\
  (forall j u, s_greens st' !! j = Some (Some u) <-> j = a /\ u = t' \/ j <> g /\ s_greens st !! j = Some (Some u)) /\
  (a = g \/ length (s_greens st) <= a).
Lemma lookup_del {X} (l : list (option X)) j g u : <[g:=None]> l !! j = Some (Some u) <-> j <> g /\ l !! j = Some (Some u).
Proof.
  destruct (decide (j = g)) as [->|Hne].
  - split; [|by intros [? _]]. intros H. exfalso. destruct (decide (g < length l)); [by rewrite list_lookup_insert in H|].
    rewrite list_insert_ge in H by lia. apply lookup_lt_Some in H. lia.
  - rewrite list_lookup_insert_ne by done. naive_solver.
Qed.
Lemma treplace_child k cs i r : treplace (Node k cs) [i] r = Node k (<[i:=r]> cs).
Proof.
  simpl. f_equal. apply list_eq. intros j. destruct (decide (i = j)) as [<-|].
  - rewrite list_lookup_alter. destruct (cs !! i) eqn:Ei; [rewrite list_lookup_insert by (by eapply lookup_lt_Some); done|].
    rewrite list_insert_ge by (by apply lookup_ge_None). by rewrite Ei.
  - by rewrite list_lookup_alter_ne, list_lookup_insert_ne.
Qed.
(** replacing below a parent: everything after the kinds have been compared *)
(** specification or proof device, no counterpart in the code *)
Definition p_replace_in (fuel s i g : nat) : script nat :=
  pg ← p_green s;
  new_parent ← p_green_replace i g pg;
  _ ← p_green_drop pg;
  _ ← p_green_drop g;
  x ← p_replace_with fuel s new_parent;
  _ ← p_drop s;
  PRet x.
(** specification or proof device, no counterpart in the code *)
Definition replaceable (t : tree) (p : pos) (x r : tree) : Prop := tkind x = tkind r /\ (blen (ttext (treplace t p r)) <= u32_max)%N.
(** specification or proof device, no counterpart in the code *)
Definition replaces (fuel : nat) (p : pos) : Prop := forall st s g n m t x r, holds st s n m t p x -> s_greens st !! g = Some (Some r) -> (blen (ttext r) <= u32_max)%N ->
  swp (p_replace_with fuel s g) (fun e _ => e = Panic /\ ~ replaceable t p x r) (fun a st' => replaceable t p x r /\ replaced_in st g (treplace t p r) a st') st.
Lemma swp_replace_in fuel p i st g n m t y x r : replaces fuel p -> tsub t p = Some y -> tsub t (p ++ [i]) = Some x -> s_trees st !! n = Some (m, t) ->
  s_greens st !! g = Some (Some r) -> (blen (ttext r) <= u32_max)%N -> tkind x = tkind r ->
  swp (p_replace_in fuel (length (s_handles st)) i g) (fun e _ => e = Panic /\ ~ replaceable t (p ++ [i]) x r)
    (fun a st' => replaceable t (p ++ [i]) x r /\ replaced_in st g (treplace t (p ++ [i]) r) a st') (add_handle (Some (n, p)) st).
Proof.
  intros IH Hy Hx Ht Hg Hr Hk. set (st1 := add_handle (Some (n, p)) st). set (s := length (s_handles st)).
  assert (Hsy : forall st2, s_handles st2 = s_handles st1 -> s_trees st2 = s_trees st -> holds st2 s n m t p y).
  { intros st2 E1 E2. split_and!; [|by rewrite E2|done]. rewrite E1. simpl. unfold s. by rewrite lookup_app_r, Nat.sub_diag. }
  pose proof Hx as Hx'. rewrite tsub_app, Hy in Hx'. simpl in Hx'. destruct y as [k cs|]; simpl in Hx'; [|done]. destruct (cs !! i) as [x'|] eqn:Hi; simpl in Hx'; [|done]. injection Hx' as ->.
  set (l := length (s_greens st)). assert (Hgl : g < l) by (by eapply lookup_lt_Some).
  unfold p_replace_in. eapply swp_green; [by apply Hsy|]. change (s_greens st1) with (s_greens st). fold l.
  eapply (swp_green_replace _ _ _ _ _ _ r k cs); [simpl; by rewrite lookup_app_r, Nat.sub_diag|simpl; by apply lookup_app_l_Some|].
  set (r' := Node k (<[i:=r]> cs)).
  assert (Er : treplace t (p ++ [i]) r = treplace t p r') by (by rewrite (treplace_app _ _ _ _ _ Hy), treplace_child).
  destruct (N.leb_spec (blen (ttext r')) u32_max) as [Hr'|Hr'].
  2:{ split; [done|]. intros [_ Hb]. rewrite Er in Hb. pose proof (treplace_text_le t p _ r' Hy). lia. }
  assert (El : length (s_greens (add_green (Node k cs) st1)) = S l) by (simpl; rewrite app_length; simpl; lia). rewrite El.
  eapply swp_green_drop; [simpl; apply lookup_app_l_Some; by rewrite lookup_app_r, Nat.sub_diag|].
  eapply (swp_green_drop _ _ _ g r); [simpl; rewrite list_lookup_insert_ne by lia; by do 2 apply lookup_app_l_Some|].
  set (st5 := del_green g _).
  assert (Hg5 : forall j u, s_greens st5 !! j = Some (Some u) <-> j = S l /\ u = r' \/ j <> g /\ s_greens st !! j = Some (Some u)).
  { intros j u. simpl. rewrite !lookup_del, !lookup_snoc_slot. rewrite app_length. simpl. fold l. rewrite Nat.add_1_r. split.
    - intros (H1&H2&[[H3|[H3 _]]|[H3 [= <-]]]); [by right|lia|by left].
    - intros [[-> ->]|[H1 H2]]; [split_and!; [lia|lia|by right]|]. pose proof (lookup_lt_Some _ _ _ H2). split_and!; [done|lia|by left; left]. }
  apply swp_bind. eapply swp_mono; [apply (IH st5 s (S l) n m t (Node k cs) r'); [by apply Hsy|apply Hg5; by left|done]| |].
  - intros e st' [-> Hno]. split; [done|]. intros [_ Hb]. apply Hno. split; [done|]. by rewrite <- Er.
  - intros a st' [[_ Hb] (R1&R2&R3&R4&R5)].
    assert (Hs5 : s_handles st' !! s = Some (Some (n, p))).
    { apply elem_of_held. rewrite R3. apply elem_of_held. simpl. unfold s. by rewrite lookup_app_r, Nat.sub_diag. }
    eapply swp_drop; [exact Hs5|]. cbn [swp]. split; [split; [done|by rewrite Er]|]. split_and!; try done.
    + apply (Permutation_cons_inv (a := (s, (n, p)))). rewrite held_del by done. rewrite R3. exact (held_add st (Some (n, p))).
    + intros j u. simpl. rewrite R4, Hg5, Er. split.
      * intros [H|[H1 [[-> _]|H2]]]; [by left|done|by right].
      * intros [H|[H1 H2]]; [by left|right]. split; [|by right]. apply lookup_lt_Some in H2. fold l in H2. lia.
    + right. destruct R5 as [->|R5]; [lia|]. assert (l <= length (s_greens st5)) by (simpl; rewrite !insert_length, !app_length; simpl; fold l; lia). lia.
Qed.
Lemma swp_replace p : forall fuel, length p < fuel -> replaces fuel p.
Proof.
  induction p as [|i p IH] using rev_ind; intros [|fuel] Hf; [lia| |lia|]; intros st s g n m t x r H Hg Hr; cbn [p_replace_with].
  - eapply swp_look; [exact H|]. eapply swp_green_look; [exact Hg|]. cbn [l_kind look_at]. apply swp_assert. destruct (N.eqb_spec (tkind x) (tkind r)) as [Hk|Hk].
    2:{ split; [done|]. by intros [? _]. }
    eapply swp_parent; [exact H|]. cbn [swp]. split; [by split|]. split_and!; try done; [exact (held_add st None)| |by left].
    intros j u. simpl. destruct (decide (j = g)) as [->|Hne]; [|naive_solver]. rewrite Hg. split; [intros [= ->]; by left|]. intros [[_ ->]|[? _]]; done.
  - eapply swp_look; [exact H|]. eapply swp_green_look; [exact Hg|]. cbn [l_kind look_at]. apply swp_assert. destruct (N.eqb_spec (tkind x) (tkind r)) as [Hk|Hk].
    2:{ split; [done|]. by intros [? _]. }
    eapply swp_parent; [exact H|]. rewrite removelast_last. cbn [l_index look_at]. rewrite last_snoc. cbn [default from_option].
    destruct H as (Hs&Ht&Hx). pose proof Hx as Hx'. rewrite tsub_app in Hx'. destruct (tsub t p) as [y|] eqn:Hy; [|done].
    destruct (p ++ [i]) as [|? ?] eqn:Ep; [by destruct p|]. rewrite <- Ep in *.
    apply (swp_replace_in fuel p i st g n m t y x r); try done. apply IH. rewrite app_length in Hf. simpl in Hf. lia.
Qed.
Lemma swp_token_replace fuel p st s g n m t x r : length p <= fuel -> holds st s n m t p x -> s_greens st !! g = Some (Some r) -> (blen (ttext r) <= u32_max)%N ->
  swp (p_token_replace_with fuel s g) (fun e _ => e = Panic /\ ~ (p <> [] /\ replaceable t p x r))
    (fun a st' => (p <> [] /\ replaceable t p x r) /\ replaced_in st g (treplace t p r) a st') st.
Proof.
  intros Hf H Hg Hr. unfold p_token_replace_with. eapply swp_look; [exact H|]. eapply swp_green_look; [exact Hg|]. cbn [l_kind look_at]. apply swp_assert.
  destruct (N.eqb_spec (tkind x) (tkind r)) as [Hk|Hk].
  2:{ split; [done|]. by intros [_ [? _]]. }
  eapply swp_parent; [exact H|]. destruct p as [|i p _] using rev_ind.
  - cbn. split; [done|]. by intros [? _].
  - rewrite removelast_last. cbn [l_index look_at]. rewrite last_snoc. cbn [default from_option].
    destruct H as (Hs&Ht&Hx). pose proof Hx as Hx'. rewrite tsub_app in Hx'. destruct (tsub t p) as [y|] eqn:Hy; [|done].
    assert (Hne : p ++ [i] <> []) by (by destruct p).
    destruct (p ++ [i]) as [|? ?] eqn:Ep; [done|]. rewrite <- Ep in *. apply swp_bind. cbn [p_unwrap swp].
    eapply swp_mono; [apply (swp_replace_in fuel p i st g n m t y x r); try done| |].
    + apply swp_replace. rewrite app_length in Hf. simpl in Hf. lia.
    + intros e st' [-> Hno]. split; [done|]. by intros [_ ?].
    + intros a st' [H1 H2]. done.
Qed.
Lemma green_fits env prog st os g r : henv_ok env -> s_run prog s_init = SOk (st, os) -> s_greens st !! g = Some (Some r) -> (blen (ttext r) <= u32_max)%N.
Proof.
  intros Henv E Hg. destruct (reach env Henv _ _ _ E) as (hs&h&_&(zs&lk&Hsim)&_). destruct (sim_gslot _ _ _ _ _ _ _ _ Hsim Hg) as (x&Hx&<-&Hin).
  pose proof (greens_wfg _ _ _ _ (sm_sim _ _ _ _ _ _ Hsim)) as HG. rewrite Forall_forall in HG. apply wfg_bound. by apply HG.
Qed.

(** ** Green elements in the client's variables *)
(** specification or proof device, no counterpart in the code *)
Definition green_look (t : tree) : look := Look false None (tkind t) (0%N, blen (ttext t)) t.
(** after [prog], the green element in variable [g] shows [t] *)
(** specification or proof device, no counterpart in the code *)
Definition gshows (env : henv) (prog : list op) (g : nat) (t : tree) : Prop :=
  exists os hs h, client env (prog ++ [OGreenLook g]) = (Ok (hs, os ++ [Some (green_look t)]), h).
Lemma gshows_greens env prog st os g t : henv_ok env -> s_run prog s_init = SOk (st, os) -> s_greens st !! g = Some (Some t) -> gshows env prog g t.
Proof.
  intros Henv E Hg. assert (E' : s_run (prog ++ [OGreenLook g]) s_init = SOk (st, os ++ [Some (green_look t)])).
  { eapply run_step; [exact E|]. cbn [s_step]. by rewrite Hg. }
  destruct (reach env Henv _ _ _ E') as (hs&h&Hc&_). by exists os, hs, h.
Qed.
Lemma greens_step o st st' x g t : s_step o st = SOk (st', x) -> s_greens st !! g = Some (Some t) -> o <> OGreenDrop g -> s_greens st' !! g = Some (Some t).
Proof.
  intros H Hg Ho. destruct (mutates o) as [[slots used]|] eqn:Hm.
  { destruct (mutation_frame o st st' x slots used Hm H) as (_&_&_&_&F&_). by rewrite F. }
  assert (Ha : forall t', (s_greens st ++ [t']) !! g = Some (Some t)) by (intros; by apply lookup_app_l_Some).
  destruct o as [k s|k els|g'|m g'|s|s|s|nv s|tok s|s|s|s|s a b ins|tok s|tok m s|s|ra rb s|a b els g'|i e g'|i g'|g']; try done; simpl in H.
  - apply bind_ok in H as ([]&_&H). injection H as <- _; first [done|by apply Ha].
  - destruct (mapM _ els); [|done]. apply bind_ok in H as ([]&_&H). injection H as <- _; first [done|by apply Ha].
  - apply bind_ok in H as (y&_&H). injection H as <- _. simpl. rewrite list_lookup_insert_ne; [done|]. intros ->. by apply Ho.
  - apply bind_ok in H as (y&_&H). apply bind_ok in H as ([]&_&H). injection H as <- _; first [done|by apply Ha].
  - apply bind_ok in H as (y&_&H). apply bind_ok in H as ([]&_&H). injection H as <- _; first [done|by apply Ha].
  - apply bind_ok in H as (y&_&H). injection H as <- _; first [done|by apply Ha].
  - apply bind_ok in H as (y&_&H). injection H as <- _; first [done|by apply Ha].
  - apply bind_ok in H as (y&_&H). destruct (s_trees st !! y.1) as [[]|]; [|done]. apply bind_ok in H as (q&_&H). injection H as <- _; first [done|by apply Ha].
  - apply bind_ok in H as (y&_&H). destruct (s_trees st !! y.1) as [[]|]; [|done]. apply bind_ok in H as (q&_&H). injection H as <- _.
    by destruct (negb _ && _ && _).
  - apply bind_ok in H as (y&_&H). apply bind_ok in H as ([]&_&H). apply bind_ok in H as ([]&_&H). apply bind_ok in H as ([]&_&H).
    destruct (s_trees st !! y.1) as [[]|]; [|done]. injection H as <- _; first [done|by apply Ha].
  - apply bind_ok in H as (y&_&H). apply bind_ok in H as ([]&_&H). apply bind_ok in H as ([]&_&H). injection H as <- _; first [done|by apply Ha].
  - apply bind_ok in H as (y&_&H). apply bind_ok in H as (l&_&H). injection H as <- _; first [done|by apply Ha].
  - apply bind_ok in H as (y&_&H). apply bind_ok in H as ([]&_&H). apply bind_ok in H as ([]&_&H). apply bind_ok in H as ([]&_&H).
    apply bind_ok in H as ([]&_&H). injection H as <- _; first [done|by apply Ha].
  - apply bind_ok in H as (y&_&H). apply bind_ok in H as ([]&_&H). destruct (mapM _ els); [|done].
    apply bind_ok in H as ([]&_&H). apply bind_ok in H as ([]&_&H). injection H as <- _; first [done|by apply Ha].
  - apply bind_ok in H as (y&_&H). apply bind_ok in H as ([]&_&H). apply bind_ok in H as (z&_&H). apply bind_ok in H as ([]&_&H). injection H as <- _; first [done|by apply Ha].
  - apply bind_ok in H as (y&_&H). apply bind_ok in H as ([]&_&H). destruct (_ !! i); [|done]. injection H as <- _; first [done|by apply Ha].
  - apply bind_ok in H as (y&_&H). injection H as <- _; first [done|by apply Ha].
Qed.
Lemma greens_run prog : forall st st' os g t, s_run prog st = SOk (st', os) -> s_greens st !! g = Some (Some t) -> OGreenDrop g ∉ prog -> s_greens st' !! g = Some (Some t).
Proof.
  induction prog as [|o prog IH]; intros st st' os g t H Hg Hn; simpl in H; [by injection H as <- <-|].
  apply bind_ok in H as ([st1 x]&H1&H). apply bind_ok in H as ([st2 xs]&H2&H). injection H as <- <-. apply not_elem_of_cons in Hn as [Hn1 Hn2].
  eapply IH; [exact H2| |exact Hn2]. eapply greens_step; [exact H1|exact Hg|done].
Qed.

(** ** The replaced element in the result *)
Lemma tbefore_treplace t p x r : tsub t p = Some x -> tbefore (treplace t p r) p = tbefore t p.
Proof.
  revert t. induction p as [|i p IH]; intros t; simpl; [done|]. destruct t as [k cs|]; simpl; [|done].
  destruct (cs !! i) as [d|] eqn:E; simpl; [|done]. intros H. rewrite list_lookup_alter, E. simpl. rewrite (IH _ H). f_equal. f_equal. f_equal.
  apply take_alter. lia.
Qed.
