(** * Release builds after a text length has wrapped

    Everything a client can do except [child_or_token_at_range] does the same to nodes and
    reference counts whatever the texts are.  Hence a run in a release build is a run on
    trees in which all texts are empty, and there a release build cannot be told from a
    debug build. *)
From Verif Require Export Refused.

(** ** Specification *)
(** specification: a kind with a text hidden in it *)
Definition enc (k : kind) (o : option str) : kind := Npos (encode (k, o)).
(** specification: the kind without the text *)
Definition dec (k : kind) : kind :=
  match k with
  | N0 => N0
  | Npos p => match decode p with Some (k, o) => let _ : option str := o in k | None => N0 end
  end.
(** specification: what is left of a token's text: nothing, unless it is longer than the
    length of a token may be (green/token.rs:98-101) *)
Definition rest (s : str) : str := if (blen s <=? u32_max)%N then [] else s.
(** specification: the tree in which all texts are empty; the texts are in the kinds *)
Fixpoint hide (t : tree) : tree :=
  match t with
  | Node k cs => Node (enc k None) (map hide cs)
  | Token k s => Token (enc k (Some s)) (rest s)
  end.
(** specification: what is shown, but for ranges; the texts are in the kinds *)
Definition hide_look (l : look) : look :=
  Look (l_mut l) (l_index l) (enc (l_kind l) (match l_tree l with Node _ _ => None | Token _ s => Some s end)) (0%N, 0%N) (hide (l_tree l)).
(** specification: the same call with texts hidden in kinds *)
Definition hide_nav (n : nav) : nav :=
  match n with
  | NFirstChildByKind m => NFirstChildByKind (fun k => m (dec k))
  | NFirstChildOrTokenByKind m => NFirstChildOrTokenByKind (fun k => m (dec k))
  | NNextSiblingByKind m => NNextSiblingByKind (fun k => m (dec k))
  | NNextSiblingOrTokenByKind m => NNextSiblingOrTokenByKind (fun k => m (dec k))
  | _ => n
  end.
(** specification: the same call with texts hidden in kinds *)
Definition hide_op (o : op) : op :=
  match o with
  | OGreenToken k s => OGreenToken (enc k (Some s)) (rest s)
  | OGreenNode k els => OGreenNode (enc k None) els
  | ONav n s => ONav (hide_nav n) s
  | ODetachByKind tok m s => ODetachByKind tok (fun k => m (dec k)) s
  | _ => o
  end.
(** specification: the calls that do not depend on lengths *)
Definition no_range (o : op) : Prop := match o with OAtRange _ _ _ => False | _ => True end.

Lemma dec_enc k o : dec (enc k o) = k.
Proof. unfold dec, enc. by rewrite decode_encode. Qed.
Lemma enc_inj k o k' o' : enc k o = enc k' o' -> k = k' /\ o = o'.
Proof. unfold enc. intros [= E]. apply (inj encode) in E. by injection E. Qed.

Lemma hide_inj t : forall u, hide t = hide u -> t = u.
Proof.
  induction t as [k cs IH|k s] using tree_ind'; intros [k' cs'|k' s']; cbn [hide]; [|done|done|].
  - intros H. pose proof (f_equal tkind H) as Ek. pose proof (f_equal tchildren H) as Ec. cbn [tkind tchildren] in Ek, Ec. clear H. apply enc_inj in Ek as [-> _]. f_equal. revert cs' Ec. induction IH as [|c cs Hc _ IHcs]; intros [|c' cs']; [done|done|done|].
    cbn [map]. intros [= E1 E2]. f_equal; [by apply Hc|by apply IHcs].
  - intros H. pose proof (f_equal tkind H) as Ek. cbn [tkind] in Ek. clear H. apply enc_inj in Ek as [-> Es]. by injection Es as ->.
Qed.

(** ** Greens without text *)
(** proof device, no counterpart in the code *)
Fixpoint bare (g : green) : green :=
  match g with
  | GNode a k _ cs => GNode a (enc k None) 0%N (map (fun c => (0%N, bare c.2)) cs)
  | GTok a k s => GTok a (enc k (Some s)) (rest s)
  end.
(** proof device, no counterpart in the code *)
Definition bc (c : N * green) : N * green := (0%N, bare c.2).
(** proof device, no counterpart in the code *)
Definition bic (ic : nat * (N * green)) : nat * (N * green) := (ic.1, bc ic.2).
(** proof device, no counterpart in the code *)
Definition bn (n : ndata) : ndata := ND (n_rc n) (n_par n) (n_idx n) (bare (n_grn n)) (n_mut n) 0%N (n_first n) (n_next n) (n_prev n).
(** proof device, no counterpart in the code *)
Definition bh (h : heap) : heap := HP (bn <$> hn h) (map bare (ow h)) (ck h).
(** proof device, no counterpart in the code *)
Definition bhs (hs : hst) : hst := HS (h_handles hs) (map (fmap bare) (h_greens hs)).
(** proof device, no counterpart in the code *)
Definition bres (r : hst * obs) : hst * obs := (bhs r.1, option_map hide_look r.2).

Lemma gaddr_bare g : gaddr (bare g) = gaddr g.
Proof. by destruct g. Qed.
Lemma gis_node_bare g : gis_node (bare g) = gis_node g.
Proof. by destruct g. Qed.
Lemma gchildren_bare g : gchildren (bare g) = map bc (gchildren g).
Proof. by destruct g. Qed.
Lemma dec_bare g : dec (gkind (bare g)) = gkind g.
Proof. destruct g; apply dec_enc. Qed.
Lemma erase_bare g : erase (bare g) = hide (erase g).
Proof.
  induction g as [a k tl cs IH|a k s] using green_ind'; simpl; [|done]. f_equal. rewrite !map_map. simpl.
  apply map_ext_Forall. exact IH.
Qed.
Lemma gaddrs_bare g : gaddrs (bare g) = gaddrs g.
Proof.
  induction g as [a k tl cs IH|a k s] using green_ind'; simpl; [|done]. f_equal. f_equal. rewrite map_map. simpl.
  apply map_ext_Forall. exact IH.
Qed.
Lemma live_addrs_bare l : live_addrs (map bare l) = live_addrs l.
Proof. unfold live_addrs. rewrite map_map. f_equal. apply map_ext. intros g. apply gaddrs_bare. Qed.
Lemma g_live_bare h g : g_live (bh h) (bare g) = g_live h g.
Proof. unfold g_live. cbn [bh ow]. by rewrite live_addrs_bare, gaddr_bare. Qed.
Lemma remove_bare a l : remove_addr a (map bare l) = option_map (map bare) (remove_addr a l).
Proof. induction l as [|g l IH]; simpl; [done|]. rewrite gaddr_bare. destruct (gaddr g =? a); [done|]. rewrite IH. by destruct (remove_addr a l). Qed.
Lemma kids_bare g : map snd (gchildren (bare g)) = map bare (map snd (gchildren g)).
Proof. rewrite gchildren_bare, !map_map. done. Qed.

(** ** A run and the same run without text *)
(** results; proof device *)
Definition rer {A B} (f : A -> B) (d : res B) (r : res A) : Prop :=
  match r with Ok a => d = Ok (f a) | Err e => d = Err e end.
(** calls; proof device *)
Definition er {A B} (f : A -> B) (d : hm B) (r : hm A) : Prop := forall h,
  match r h with
  | (Ok a, h') => d (bh h) = (Ok (f a), bh h')
  | (Err e, _) => (d (bh h)).1 = Err e
  end.
(** calls that look at ranges may panic in addition; proof device *)
Definition erw {A B} (f : A -> B) (d : hm B) (r : hm A) : Prop := forall h,
  match r h with
  | (Ok a, h') => d (bh h) = (Ok (f a), bh h')
  | (Err Panic, _) => True
  | (Err e, _) => (d (bh h)).1 = Err e
  end.
Notation same_ := (fun x => x).

Lemma er_bind {A A' B B'} (f : A -> A') (g : B -> B') (d : hm A') (r : hm A) D R :
  er f d r -> (forall a, er g (D (f a)) (R a)) -> er g (d ≫= D) (r ≫= R).
Proof.
  intros H Hf h. specialize (H h). unfold mbind, hm_bind. destruct (r h) as [[a|e] h'].
  - rewrite H. apply Hf.
  - destruct (d (bh h)) as [[]?]; simpl in *; by simplify_eq.
Qed.
Lemma erw_bind {A A' B B'} (f : A -> A') (g : B -> B') (d : hm A') (r : hm A) D R :
  erw f d r -> (forall a, erw g (D (f a)) (R a)) -> erw g (d ≫= D) (r ≫= R).
Proof.
  intros H Hf h. specialize (H h). unfold mbind, hm_bind. destruct (r h) as [[a|e] h'].
  - rewrite H. apply Hf.
  - destruct e; [done| |]; destruct (d (bh h)) as [[]?]; simpl in *; by simplify_eq.
Qed.
Lemma er_weak {A B} (f : A -> B) d r : er f d r -> erw f d r.
Proof. intros H h. specialize (H h). by destruct (r h) as [[a|[]] h']. Qed.
Lemma erw_lift {A B} (f : A -> B) d r : (match r with Ok a => d = Ok (f a) | Err Panic => True | Err e => d = Err e end) -> erw f (lift d) (lift r).
Proof. intros H h. unfold lift. destruct r as [a|[]]; simpl in *; by subst. Qed.
Lemma er_ret {A B} (f : A -> B) a b : b = f a -> er f (mret b) (mret a).
Proof. intros -> h. done. Qed.
Lemma er_panic {A B} (f : A -> B) : er f hpanic hpanic.
Proof. intros h. done. Qed.
Lemma er_skip : er same_ hskip hskip.
Proof. by apply er_ret. Qed.
Lemma er_lift {A B} (f : A -> B) d r : rer f d r -> er f (lift d) (lift r).
Proof. intros H h. unfold lift. destruct r as [a|e]; simpl in *; by subst. Qed.
Lemma er_assert b b' : b = b' -> er same_ (hassert b') (hassert b).
Proof. intros -> h. by destruct b'. Qed.
Lemma er_diverge {A B} (f : A -> B) : er f (lift (Err Diverge)) (lift (Err Diverge)).
Proof. intros h. done. Qed.

Lemma er_get p : er bn (h_get p) (h_get p).
Proof. intros h. unfold h_get. cbn [bh hn]. rewrite lookup_fmap. by destruct (hn h !! p). Qed.
Lemma er_mod p f f' : (forall n, bn (f n) = f' (bn n)) -> er same_ (h_mod p f') (h_mod p f).
Proof.
  intros H h. unfold h_mod. cbn [bh hn]. rewrite lookup_fmap. destruct (hn h !! p) as [n|]; [|done]. simpl. f_equal. unfold bh, set_hn. simpl.
  by rewrite fmap_insert, H.
Qed.
Lemma er_ptr o : er same_ (h_ptr o) (h_ptr o).
Proof. apply er_lift. by destruct o. Qed.
Lemma er_alloc env n n' : n' = bn n -> er same_ (h_alloc env n') (h_alloc env n).
Proof. intros -> h. unfold h_alloc. cbn [bh hn ck ow]. rewrite dom_fmap_L. unfold bh. simpl. by rewrite fmap_insert. Qed.
Lemma er_del p : er same_ (h_del p) (h_del p).
Proof. intros h. unfold h_del, bh, set_hn. simpl. by rewrite fmap_delete. Qed.
Lemma er_size : er same_ h_size h_size.
Proof. intros h. unfold h_size. cbn [bh hn]. by rewrite map_size_fmap. Qed.
Lemma er_green_own g g' : g' = bare g -> er same_ (h_green_own g') (h_green_own g).
Proof. intros -> h. unfold h_green_own. rewrite g_live_bare. by destruct (g_live h g). Qed.
Lemma er_green_read g g' : g' = bare g -> er same_ (h_green_read g') (h_green_read g).
Proof. intros -> h. unfold h_green_read. rewrite g_live_bare. by destruct (g_live h g). Qed.
Lemma er_green_drop g g' : g' = bare g -> er same_ (h_green_drop g') (h_green_drop g).
Proof. intros -> h. unfold h_green_drop. rewrite gaddr_bare. cbn [bh ow]. rewrite remove_bare. by destruct (remove_addr _ _). Qed.
Lemma er_green_build env f f' used used' : used' = option_map bare used -> (forall a, rer bare (f' a) (f a)) ->
  er bare (h_green_build env f' used') (h_green_build env f used).
Proof.
  intros -> H h. unfold h_green_build. cbn [bh ow ck hn]. rewrite live_addrs_bare.
  assert ((match option_map bare used with Some u => remove_addr (gaddr u) (map bare (ow h)) | None => Some (map bare (ow h)) end) =
    option_map (map bare) (match used with Some u => remove_addr (gaddr u) (ow h) | None => Some (ow h) end)) as ->.
  { destruct used as [u|]; simpl; [|done]. by rewrite gaddr_bare, remove_bare. }
  destruct (match used with Some u => _ | None => _ end) as [o|]; simpl; [|done].
  specialize (H (galloc env (ck h) (live_addrs (ow h)))). destruct (f _) as [g|e]; simpl in *; by rewrite H.
Qed.
Lemma er_green p : er bare (h_green p) (h_green p).
Proof.
  intros h. unfold h_green. cbn [bh hn]. rewrite lookup_fmap. destruct (hn h !! p) as [n|]; [|done]. simpl.
  rewrite g_live_bare. by destruct (g_live h (n_grn n)).
Qed.
Lemma rer_add a b : rer (fun _ => 0%N) (add32 Wrapping 0 0) (add32 Wrapping a b).
Proof. unfold rer, add32. by destruct (a + b <=? u32_max)%N. Qed.
Lemma rer_text_len g : rer (fun _ => 0%N) (green_text_len (bare g)) (green_text_len g).
Proof. destruct g as [|a k s]; [done|]. unfold rer. simpl. unfold rest. destruct (blen s <=? u32_max)%N eqn:E; [done|]. by rewrite E. Qed.
Lemma rer_bind {A A' B B'} (f : A -> A') (g : B -> B') (d : res A') (r : res A) D R :
  rer f d r -> (forall a, rer g (D (f a)) (R a)) -> rer g (d ≫= D) (r ≫= R).
Proof. intros H Hf. destruct r as [a|e]; simpl in *; [rewrite H; apply Hf|by rewrite H]. Qed.
Lemma rer_assign els : forall o, rer (fun r => (map bc r.1, 0%N)) (assign_offsets Wrapping 0 (map bare els)) (assign_offsets Wrapping o els).
Proof.
  induction els as [|el els IH]; intros o; cbn [assign_offsets map]; [done|].
  eapply rer_bind; [apply rer_text_len|]. intros l. eapply rer_bind; [apply rer_add|]. intros t.
  eapply rer_bind; [apply IH|]. intros [cs n]. done.
Qed.
Lemma rer_new a k els : rer bare (green_new Wrapping a (enc k None) (map bare els)) (green_new Wrapping a k els).
Proof. eapply rer_bind; [apply rer_assign|]. intros [cs n]. done. Qed.
Lemma rer_node_new a g els : gis_node g = true -> rer bare (green_new Wrapping a (gkind (bare g)) (map bare els)) (green_new Wrapping a (gkind g) els).
Proof. destruct g as [b k tl cs|]; [|done]. intros _. apply rer_new. Qed.
Lemma rer_vec_splice (l repl : list green) lo hi : rer (map bare) (vec_splice (map bare l) lo hi (map bare repl)) (vec_splice l lo hi repl).
Proof.
  unfold vec_splice. rewrite map_length. destruct (_ && _); simpl; [|done]. by rewrite !map_app, <- !firstn_map, <- !skipn_map.
Qed.
Lemma rer_splice a g lo hi els : gis_node g = true -> rer bare (green_splice_children Wrapping a (bare g) lo hi (map bare els)) (green_splice_children Wrapping a g lo hi els).
Proof. intros Hg. unfold green_splice_children. rewrite kids_bare. eapply rer_bind; [apply rer_vec_splice|]. intros cs. by apply rer_node_new. Qed.
Lemma rer_replace a g i x : gis_node g = true -> rer bare (green_replace_child Wrapping a (bare g) i (bare x)) (green_replace_child Wrapping a g i x).
Proof.
  intros Hg. unfold green_replace_child. rewrite kids_bare.
  assert (E : map (fun '(j, child) => if j =? i then bare x else child) (enumerate (map bare (map snd (gchildren g)))) =
    map bare (map (fun '(j, child) => if j =? i then x else child) (enumerate (map snd (gchildren g))))).
  { apply list_eq. intros j. rewrite !lookup_map, !lookup_enumerate, !lookup_map. destruct (gchildren g !! j); simpl; [|done]. by destruct (j =? i). }
  rewrite E. by apply rer_node_new.
Qed.
Lemma er_assert_bind {B B'} (g : B -> B') b b' D R : b' = b -> (b = true -> er g (D ()) (R ())) -> er g (hassert b' ≫= D) (hassert b ≫= R).
Proof. intros -> H h. destruct b; [by apply H|done]. Qed.
Lemma er_ext {A B} (f g : A -> B) d r : (forall a, f a = g a) -> er f d r -> er g d r.
Proof. intros E H h. specialize (H h). destruct (r h) as [[a|[]] h']; try done. by rewrite <- E. Qed.

Notation W := Wrapping.
Create HintDb er.
Ltac er1 := lazymatch goal with
  | |- er _ (hassert _ ≫= _) (hassert _ ≫= _) => apply er_assert_bind; [try done; by rewrite ?gis_node_bare|intros ?]
  | |- er _ (_ ≫= _) (_ ≫= _) => eapply er_bind; [|intros ?]
  | |- er _ hskip hskip => apply er_skip
  | |- er _ (@hdebug _ _) (@hdebug _ _) => apply er_skip
  | |- er _ (mret _) (mret _) => apply er_ret; try done
  | |- er _ hpanic hpanic => apply er_panic
  | |- er _ (lift (Err Diverge)) _ => apply er_diverge
  | |- er _ (h_get _) _ => apply er_get
  | |- er _ (h_mod _ _) _ => apply er_mod; intros ?; try done
  | |- er _ (h_ptr _) _ => apply er_ptr
  | |- er _ (h_alloc _ _) _ => apply er_alloc; try done
  | |- er _ (h_del _) _ => apply er_del
  | |- er _ h_size _ => apply er_size
  | |- er _ (h_green_own _) _ => apply er_green_own; try done
  | |- er _ (h_green_read _) _ => apply er_green_read; try done
  | |- er _ (h_green_drop _) _ => apply er_green_drop; try done
  | |- er _ (h_green _) _ => apply er_green
  | |- er _ _ (match ?x with _ => _ end) => destruct x; cbn [bn n_rc n_par n_idx n_grn n_mut n_off n_first n_next n_prev]
  | |- er _ _ _ => solve [eauto with er nocore]
  end.
Ltac ers := repeat (cbn [bn n_rc n_par n_idx n_grn n_mut n_off n_first n_next n_prev]; er1).

Lemma e_inc p : er same_ (h_inc_rc p) (h_inc_rc p).
Proof. unfold h_inc_rc. ers. Qed.
Lemma e_clone p : er same_ (h_clone p) (h_clone p).
Proof. unfold h_clone. eapply er_bind; [apply e_inc|]. intros ?. ers. Qed.
Global Hint Resolve e_inc e_clone : er.
Lemma e_add_to_sll r e : er same_ (h_add_to_sll r e) (h_add_to_sll r e).
Proof. unfold h_add_to_sll. ers. Qed.
Global Hint Resolve e_add_to_sll : er.
Lemma e_unlink x e : er same_ (@h_unlink W x e) (@h_unlink W x e).
Proof. unfold h_unlink. ers. Qed.
Global Hint Resolve e_unlink : er.
Lemma e_link_loop fuel : forall c k, er same_ (h_link_loop fuel c k) (h_link_loop fuel c k).
Proof. induction fuel as [|fuel IH]; intros c k; cbn [h_link_loop]; ers. Qed.
Global Hint Resolve e_link_loop : er.
Lemma e_link x k : er same_ (h_link x k) (h_link x k).
Proof. unfold h_link. ers. Qed.
Global Hint Resolve e_link : er.
Lemma e_delta k d : er same_ (lift (@add_delta W k d)) (lift (@add_delta W k d)).
Proof. apply er_lift. destruct d; simpl; [done|]. by destruct (_ <=? _). Qed.
Global Hint Resolve e_delta : er.
Lemma e_adjust_loop fuel e : forall c from d, er same_ (@h_adjust_loop W fuel e c from d) (@h_adjust_loop W fuel e c from d).
Proof. induction fuel as [|fuel IH]; intros c from d; cbn [h_adjust_loop]; ers. Qed.
Global Hint Resolve e_adjust_loop : er.
Lemma e_adjust e from d : er same_ (@h_adjust W e from d) (@h_adjust W e from d).
Proof. unfold h_adjust. ers. Qed.
Global Hint Resolve e_adjust : er.
Lemma e_dec p : er same_ (@h_dec_rc W p) (@h_dec_rc W p).
Proof. unfold h_dec_rc. ers. Qed.
Global Hint Resolve e_dec : er.
Lemma e_free_loop fuel : forall p, er same_ (@h_free_loop W fuel p) (@h_free_loop W fuel p).
Proof. induction fuel as [|fuel IH]; intros p; cbn [h_free_loop]; ers. Qed.
Global Hint Resolve e_free_loop : er.
Lemma e_free p : er same_ (@h_free W p) (@h_free W p).
Proof. unfold h_free. ers. Qed.
Global Hint Resolve e_free : er.
Lemma e_drop p : er same_ (@h_drop W p) (@h_drop W p).
Proof. unfold h_drop. ers. Qed.
Global Hint Resolve e_drop : er.
Lemma e_drop_opt p : er same_ (@h_drop_opt W p) (@h_drop_opt W p).
Proof. unfold h_drop_opt. ers. Qed.
Global Hint Resolve e_drop_opt : er.
Lemma e_add a b : er (fun _ => 0%N) (lift (add32 W 0 0)) (lift (add32 W a b)).
Proof. apply er_lift, rer_add. Qed.
Lemma e_text_len g : er (fun _ => 0%N) (lift (green_text_len (bare g))) (lift (green_text_len g)).
Proof. apply er_lift, rer_text_len. Qed.
Lemma e_range_end a b : erw (fun _ => 0%N) (lift (range_end W 0 0)) (lift (range_end W a b)).
Proof.
  apply erw_lift. unfold range_end. pose proof (rer_add a b) as H. unfold rer in H. destruct (add32 W a b) as [e|]; [|by unfold add32 in H; simpl in H].
  unfold mbind, res_bind. rewrite H. by destruct (a <=? e)%N.
Qed.
Lemma e_nth g i : er bc (lift (unwrap (gchildren (bare g) !! i))) (lift (unwrap (gchildren g !! i))).
Proof. apply er_lift. rewrite gchildren_bare, list_lookup_fmap. by destruct (gchildren g !! i). Qed.
Global Hint Resolve e_add e_text_len e_nth : er.
Lemma e_new env parent i o g m : er same_ (@h_new W env parent i 0%N (bare g) m) (@h_new W env parent i o g m).
Proof. unfold h_new. ers. Qed.
Global Hint Resolve e_new : er.
Lemma e_offset_mut_loop fuel : forall p o, er (fun _ => 0%N) (@h_offset_mut_loop W fuel p 0) (@h_offset_mut_loop W fuel p o).
Proof. induction fuel as [|fuel IH]; intros p o; cbn [h_offset_mut_loop]; ers. Qed.
Global Hint Resolve e_offset_mut_loop : er.
Lemma e_offset p : er (fun _ => 0%N) (@h_offset W p) (@h_offset W p).
Proof. unfold h_offset. ers. Qed.
Lemma e_index p : er same_ (h_index p) (h_index p).
Proof. unfold h_index. ers. Qed.
Global Hint Resolve e_offset e_index : er.
Lemma e_text_range p : erw (fun _ => TR 0 0) (@h_text_range W p) (@h_text_range W p).
Proof.
  unfold h_text_range. eapply erw_bind; [apply er_weak, e_offset|]. intros o. eapply erw_bind; [apply er_weak, er_green|]. intros g.
  eapply erw_bind; [apply er_weak, e_text_len|]. intros l. eapply erw_bind; [apply e_range_end|]. intros e. by apply er_weak, er_ret.
Qed.
Lemma e_siblings p : er (map bc) (@h_green_siblings W p) (@h_green_siblings W p).
Proof. unfold h_green_siblings. ers. by rewrite gchildren_bare. Qed.
Lemma e_new_root env g : er same_ (@h_new_root W env (bare g)) (@h_new_root W env g).
Proof. unfold h_new_root. ers. Qed.
Lemma e_new_root_mut env g : er same_ (@h_new_root_mut W env (bare g)) (@h_new_root_mut W env g).
Proof. unfold h_new_root_mut. ers. Qed.
Lemma e_parent p : er same_ (@h_parent W p) (@h_parent W p).
Proof. unfold h_parent. ers. Qed.
Global Hint Resolve e_siblings e_new_root e_new_root_mut e_parent : er.
Lemma e_mk_child env p ic : er same_ (@h_mk_child W env p (bic ic)) (@h_mk_child W env p ic).
Proof. unfold h_mk_child. cbn [bic bc fst snd]. ers. Qed.
Global Hint Resolve e_mk_child : er.
Lemma e_child_opt env sel sel' p : (forall cs, sel' (map bc cs) = option_map bic (sel cs)) -> er same_ (@h_child_opt W env sel' p) (@h_child_opt W env sel p).
Proof.
  intros H. unfold h_child_opt. eapply er_bind; [apply er_green|]. intros g. apply er_assert_bind; [apply gis_node_bare|]. intros _.
  rewrite gchildren_bare, H. destruct (sel (gchildren g)); cbn [option_map]; ers.
Qed.
Lemma e_sibling_opt env sel sel' p : (forall i cs, sel' i (map bc cs) = option_map bic (sel i cs)) -> er same_ (@h_sibling_opt W env sel' p) (@h_sibling_opt W env sel p).
Proof.
  intros H. unfold h_sibling_opt. eapply er_bind; [apply e_siblings|]. intros cs. eapply er_bind; [apply e_index|]. intros i.
  rewrite H. destruct (sel i cs); cbn [option_map]; ers.
Qed.

(** ** What is selected among children *)
Lemma enumerate_bare cs : enumerate (map bc cs) = map bic (enumerate cs).
Proof. apply list_eq. intros i. rewrite (list_lookup_fmap bic), !lookup_enumerate, (list_lookup_fmap bc). by destruct (cs !! i). Qed.
Lemma find_map_bare (f g : nat * (N * green) -> option (nat * (N * green))) l :
  (forall x, g (bic x) = option_map bic (f x)) -> find_map g (map bic l) = option_map bic (find_map f l).
Proof. intros H. induction l as [|x l IH]; simpl; [done|]. rewrite H. by destruct (f x). Qed.
Lemma sel_node_bare x : sel_node (bic x) = option_map bic (sel_node x).
Proof. unfold sel_node. cbn [bic bc fst snd]. rewrite gis_node_bare. by destruct (gis_node x.2.2). Qed.
Lemma sel_kind_bare m x : sel_kind (fun k => m (dec k)) (bic x) = option_map bic (sel_kind m x).
Proof. unfold sel_kind. cbn [bic bc fst snd]. rewrite dec_bare. by destruct (m _). Qed.
Lemma sel_node_kind_bare m x : sel_node_kind (fun k => m (dec k)) (bic x) = option_map bic (sel_node_kind m x).
Proof. unfold sel_node_kind. rewrite sel_node_bare. cbn [bic bc fst snd]. rewrite dec_bare. by destruct (m _). Qed.
Lemma e_nav env n p : er same_ (@h_nav W env (hide_nav n) p) (@h_nav W env n p).
Proof.
  destruct n; cbn [hide_nav h_nav]; [apply e_parent|apply e_child_opt|apply e_child_opt|apply e_child_opt|apply e_child_opt|apply e_child_opt|apply e_child_opt|
    apply e_sibling_opt|apply e_sibling_opt|apply e_sibling_opt|apply e_sibling_opt|apply e_sibling_opt|apply e_sibling_opt].
  - intros cs. rewrite enumerate_bare. apply find_map_bare, sel_node_bare.
  - intros cs. rewrite enumerate_bare, <- map_rev. apply find_map_bare, sel_node_bare.
  - intros cs. rewrite enumerate_bare. apply find_map_bare, sel_node_kind_bare.
  - intros cs. by destruct cs.
  - intros cs. rewrite enumerate_bare. apply (fmap_last bic).
  - intros cs. rewrite enumerate_bare. apply find_map_bare, sel_kind_bare.
  - intros i cs. rewrite enumerate_bare, skipn_map. apply find_map_bare, sel_node_bare.
  - intros i cs. cbn zeta. rewrite enumerate_bare, <- map_rev, map_length. destruct (_ <? _); [done|]. rewrite skipn_map. apply find_map_bare, sel_node_bare.
  - intros i cs. rewrite enumerate_bare, skipn_map. apply find_map_bare, sel_node_kind_bare.
  - intros i cs. rewrite enumerate_bare. apply (list_lookup_fmap bic).
  - intros [|i] cs; [done|]. rewrite enumerate_bare. apply (list_lookup_fmap bic).
  - intros i cs. rewrite enumerate_bare, skipn_map. apply find_map_bare, sel_kind_bare.
Qed.
Global Hint Resolve e_nav : er.
Lemma e_can_take p : er same_ (h_can_take_ptr p) (h_can_take_ptr p).
Proof. unfold h_can_take_ptr. ers. Qed.
Global Hint Resolve e_can_take : er.
Lemma e_to_next env slow sel p : (forall x, sel (bic x) = option_map bic (sel x)) -> er same_ (slow p) (slow p) -> er same_ (@h_to_next W env slow sel p) (@h_to_next W env slow sel p).
Proof.
  intros H Hs. unfold h_to_next. eapply er_bind; [apply e_can_take|]. intros []; cbn [negb]; [|ers].
  eapply er_bind; [apply e_parent|]. intros [q|]; [|ers].
  eapply er_bind; [apply e_offset|]. intros o. eapply er_bind; [apply er_green|]. intros g. apply er_assert_bind; [apply gis_node_bare|]. intros _.
  eapply er_bind; [apply er_get|]. intros n. eapply er_bind; [|intros r; ers].
  cbn [bn n_idx]. rewrite gchildren_bare, enumerate_bare, skipn_map, (find_map_bare sel sel) by done.
  destruct (find_map sel _) as [[i [ro c]]|]; cbn [option_map bic bc fst snd]; ers.
Qed.
Lemma e_to_next_any env tok p : er same_ (@h_to_next_any env W tok p) (@h_to_next_any env W tok p).
Proof.
  destruct tok; apply e_to_next; [done|apply (e_nav env NNextSiblingOrToken)|apply sel_node_bare|apply (e_nav env NNextSibling)].
Qed.
Global Hint Resolve e_to_next_any : er.
Lemma e_cfu_loop env fuel : forall p, er same_ (@h_clone_for_update_loop W env fuel p) (@h_clone_for_update_loop W env fuel p).
Proof. induction fuel as [|fuel IH]; intros p; cbn [h_clone_for_update_loop]; ers. Qed.
Global Hint Resolve e_cfu_loop : er.
Lemma e_cfu env p : er same_ (@h_clone_for_update W env p) (@h_clone_for_update W env p).
Proof. unfold h_clone_for_update. ers. Qed.
Lemma e_clone_subtree env p : er same_ (@h_clone_subtree W env p) (@h_clone_subtree W env p).
Proof. unfold h_clone_subtree. ers. Qed.
Global Hint Resolve e_cfu e_clone_subtree : er.

(** ** Mutation *)
Lemma e_respine_loop env fuel : forall p g, er same_ (@h_respine_loop W env fuel p (bare g)) (@h_respine_loop W env fuel p g).
Proof.
  induction fuel as [|fuel IH]; intros p g; cbn [h_respine_loop]; [apply er_diverge|]. eapply er_bind; [apply er_get|]. intros n.
  apply er_assert_bind; [apply gis_node_bare|]. intros _. eapply er_bind; [by apply er_mod|]. intros _. cbn [bn n_par n_grn n_idx].
  destruct (n_par n) as [q|]; [|by apply er_green_drop]. eapply er_bind; [apply er_green|]. intros pg. apply er_assert_bind; [apply gis_node_bare|]. intros Hg.
  eapply er_bind; [apply er_green_build; [done|]; intros a; by apply rer_replace|]. intros g'. apply IH.
Qed.
Global Hint Resolve e_respine_loop : er.
Lemma e_respine env p g : er same_ (@h_respine W env p (bare g)) (@h_respine W env p g).
Proof. unfold h_respine. ers. Qed.
Global Hint Resolve e_respine : er.
Lemma rer_remove a g i : gis_node g = true -> rer bare (green_remove_child W a (bare g) i) (green_remove_child W a g i).
Proof. intros Hg. by apply (rer_splice a g _ _ []). Qed.
Lemma rer_insert a g i x : gis_node g = true -> rer bare (green_insert_child W a (bare g) i (bare x)) (green_insert_child W a g i x).
Proof. intros Hg. by apply (rer_splice a g _ _ [x]). Qed.
Lemma e_remove env g i : gis_node g = true -> er bare (h_green_build env (fun a => green_remove_child W a (bare g) i) None) (h_green_build env (fun a => green_remove_child W a g i) None).
Proof. intros Hg. apply er_green_build; [done|]. intros a. by apply rer_remove. Qed.
Lemma e_insert env g i x : gis_node g = true -> er bare (h_green_build env (fun a => green_insert_child W a (bare g) i (bare x)) (Some (bare x))) (h_green_build env (fun a => green_insert_child W a g i x) (Some x)).
Proof. intros Hg. apply er_green_build; [done|]. intros a. by apply rer_insert. Qed.
Global Hint Resolve e_remove e_insert : er.
Lemma e_detach env p : er same_ (@h_detach W env p) (@h_detach W env p).
Proof. unfold h_detach. ers. Qed.
Global Hint Resolve e_detach : er.
Lemma e_attach_data env p i c : er same_ (@h_attach_data W env p i c) (@h_attach_data W env p i c).
Proof. unfold h_attach_data, h_attach_with. ers. Qed.
Global Hint Resolve e_attach_data : er.
Lemma e_attach_child env p i c : er same_ (@h_attach_child W env p i c) (@h_attach_child W env p i c).
Proof. unfold h_attach_child. ers. Qed.
Global Hint Resolve e_attach_child : er.

(** ** Loops *)
Lemma e_children_new p : er same_ (h_children_new p) (h_children_new p).
Proof. unfold h_children_new. ers. Qed.
Lemma e_clone_opt o : er same_ (h_clone_opt o) (h_clone_opt o).
Proof. unfold h_clone_opt. ers. Qed.
Lemma e_children_drop it : er same_ (@h_children_drop W it) (@h_children_drop W it).
Proof. unfold h_children_drop. ers. Qed.
Global Hint Resolve e_children_new e_clone_opt e_children_drop : er.
Lemma e_kids_next env tok it : er same_ (@h_kids_next env W tok it) (@h_kids_next env W tok it).
Proof.
  destruct tok; unfold h_kids_next, h_element_children_next, h_node_children_next; (eapply (er_bind same_); [|intros ?; ers]).
  - destruct (negb (hc_init it)); [apply (e_nav env NFirstChildOrToken)|]. destruct (hc_next it); [apply (e_to_next_any env true)|ers].
  - destruct (negb (hc_init it)); [apply (e_nav env NFirstChild)|]. destruct (hc_next it); [apply (e_to_next_any env false)|ers].
Qed.
Global Hint Resolve e_kids_next : er.
Lemma e_detach_loop env next sel fuel : (forall it, er same_ (next it) (next it)) -> forall i it,
  er same_ (@h_detach_loop W env next sel fuel i it) (@h_detach_loop W env next sel fuel i it).
Proof.
  intros H. induction fuel as [|fuel IH]; intros i it; cbn [h_detach_loop]; [apply er_diverge|]. eapply er_bind; [apply H|]. intros [o it']. cbn beta iota. ers.
Qed.
Lemma e_attach_all env p l : forall i, er same_ (@h_attach_all W env p i l) (@h_attach_all W env p i l).
Proof. induction l as [|c l IH]; intros i; cbn [h_attach_all]; ers. Qed.
Global Hint Resolve e_attach_all : er.
Lemma e_splice env p a b l : er same_ (@h_splice_children W env p a b l) (@h_splice_children W env p a b l).
Proof.
  unfold h_splice_children. eapply er_bind; [apply er_get|]. intros n. apply er_assert_bind; [done|]. intros _. eapply er_bind; [apply er_green|]. intros g.
  eapply er_bind; [apply e_children_new|]. intros it. rewrite gchildren_bare, map_length. eapply (er_bind same_); [|intros ?; apply e_attach_all].
  apply e_detach_loop. intros it'. apply (e_kids_next env true).
Qed.
Global Hint Resolve e_splice : er.
Lemma e_by_kind_new env tok m p : er same_ (@h_by_kind_new env W tok (fun k => m (dec k)) p) (@h_by_kind_new env W tok m p).
Proof.
  unfold h_by_kind_new. eapply er_bind; [apply e_clone|]. intros q. eapply (er_bind same_); [|intros ?; ers].
  destruct tok; [apply (e_nav env (NFirstChildOrTokenByKind m))|apply (e_nav env (NFirstChildByKind m))].
Qed.
Lemma e_by_kind_next env tok m o : er same_ (@h_by_kind_next env W tok (fun k => m (dec k)) o) (@h_by_kind_next env W tok m o).
Proof.
  unfold h_by_kind_next. destruct o as [x|]; [|ers]. eapply (er_bind same_); [|intros ?; ers].
  destruct tok; [apply (e_nav env (NNextSiblingOrTokenByKind m))|apply (e_nav env (NNextSiblingByKind m))].
Qed.
Lemma e_by_kind_loop env tok m fuel : forall o, er same_ (@h_by_kind_detach_loop env W tok (fun k => m (dec k)) fuel o) (@h_by_kind_detach_loop env W tok m fuel o).
Proof.
  induction fuel as [|fuel IH]; intros o; cbn [h_by_kind_detach_loop]; [apply er_diverge|]. eapply er_bind; [apply e_by_kind_next|]. intros [c nx]. cbn beta iota. ers.
Qed.

(** ** Calls *)
Lemma offset_mut_ro fuel : forall x o h, (@h_offset_mut_loop W fuel x o h).2 = h.
Proof.
  induction fuel as [|fuel IH]; intros x o h; [done|]. cbn [h_offset_mut_loop]. unfold mbind, hm_bind, h_get. destruct (hn h !! x) as [n|]; [|done].
  destruct (n_par n) as [q|]; [|done]. unfold h_green. destruct (hn h !! q) as [nq|]; [|done]. destruct (g_live h (n_grn nq)); [|done].
  unfold hassert, lift. destruct (gis_node (n_grn nq)); [|done]. cbn [rassert]. destruct (gchildren (n_grn nq) !! n_idx n) as [c|]; [|done]. cbn [unwrap].
  destruct (add32 W o c.1); [apply IH|done].
Qed.
Lemma text_range_ro x h : (@h_text_range W x h).2 = h.
Proof.
  assert (Ho : (@h_offset W x h).2 = h).
  { unfold h_offset, mbind, hm_bind, h_get. destruct (hn h !! x) as [n|]; [|done]. destruct (n_mut n); [|done]. apply offset_mut_ro. }
  unfold h_text_range, mbind, hm_bind. destruct (h_offset x h) as [[o|e] h']; simpl in Ho; subst h'; [|done].
  unfold h_green. destruct (hn h !! x) as [n|]; [|done]. destruct (g_live h (n_grn n)); [|done]. unfold lift. destruct (green_text_len (n_grn n)); [|done].
  by destruct (range_end W o a).
Qed.
Lemma e_look x : erw hide_look (@h_look W x) (@h_look W x).
Proof.
  intros h. unfold h_look, h_index, h_kind, mbind, hm_bind. pose proof (er_get x h) as E1. pose proof (er_green x h) as E2. pose proof (e_text_range x h) as E3.
  destruct (h_get x h) as [[n|[]] h1] eqn:Eg; [|done|by destruct (h_get x (bh h)) as [[]?]; simpl in *; simplify_eq|by destruct (h_get x (bh h)) as [[]?]; simpl in *; simplify_eq].
  assert (h1 = h) as -> by (unfold h_get in Eg; destruct (hn h !! x); by simplify_eq).
  rewrite E1. cbn beta iota. rewrite Eg, E1. unfold mret, hm_ret. cbn beta iota.
  destruct (h_green x h) as [[g|[]] h2] eqn:Er; [|done|by destruct (h_green x (bh h)) as [[]?]; simpl in *; simplify_eq|by destruct (h_green x (bh h)) as [[]?]; simpl in *; simplify_eq].
  assert (h2 = h) as -> by (unfold h_green in Er; destruct (hn h !! x); [destruct (g_live _ _)|]; by simplify_eq).
  rewrite E2. cbn beta iota. pose proof (text_range_ro x h) as Hro.
  destruct (@h_text_range W x h) as [[r|[]] h3]; simpl in Hro; subst; [|done|by destruct (@h_text_range W x (bh h)) as [[]?]; simpl in *; simplify_eq|by destruct (@h_text_range W x (bh h)) as [[]?]; simpl in *; simplify_eq].
  rewrite E3, Er, E2. cbn beta iota. unfold hide_look. cbn [l_mut l_index l_kind l_tree bn n_mut n_par n_idx rstart rend].
  rewrite erase_bare. by destruct g.
Qed.

Lemma er_slot {A B} (f : A -> B) (l : list (option A)) i : er f (h_slot (map (fmap f) l !! i)) (h_slot (l !! i)).
Proof. rewrite (list_lookup_fmap (fmap f)). destruct (l !! i) as [[a|]|]; intros h; done. Qed.
Lemma e_hslot (hs : hst) i : er same_ (h_slot (h_handles (bhs hs) !! i)) (h_slot (h_handles hs !! i)).
Proof. cbn [bhs h_handles]. intros h. destruct (h_handles hs !! i) as [[a|]|]; done. Qed.
Lemma e_gslot (hs : hst) i : er bare (h_slot (h_greens (bhs hs) !! i)) (h_slot (h_greens hs !! i)).
Proof. apply er_slot. Qed.
Global Hint Resolve e_hslot e_gslot : er.
Lemma gslots_bare (hs : hst) els : mapM (fun g => mjoin (h_greens (bhs hs) !! g)) els = option_map (map bare) (mapM (fun g => mjoin (h_greens hs !! g)) els).
Proof.
  induction els as [|e els IH]; [done|]. cbn [mapM]. rewrite IH. cbn [bhs h_greens]. rewrite (list_lookup_fmap (fmap bare)).
  generalize (mapM (fun g => mjoin (h_greens hs !! g)) els). intros r. by destruct (h_greens hs !! e) as [[g|]|], r.
Qed.
Lemma bhs_gadd g hs : bhs (hgadd g hs) = hgadd (bare g) (bhs hs).
Proof. unfold bhs, hgadd. simpl. by rewrite map_app. Qed.
Lemma bhs_gdel g hs : bhs (hgdel g hs) = hgdel g (bhs hs).
Proof. unfold bhs, hgdel. simpl. by rewrite map_fmap_insert. Qed.
Lemma bhs_dels ins hs : bhs (foldl (fun hs c => hdel c hs) hs ins) = foldl (fun hs c => hdel c hs) (bhs hs) ins.
Proof. revert hs. induction ins as [|c ins IH]; intros hs; [done|]. apply IH. Qed.

(** proof device: green elements that have to be nodes are nodes *)
Definition gtyped (o : op) (hs : hst) : Prop :=
  match o with
  | OGreenSplice _ _ _ g | OGreenReplace _ _ g => forall x, h_greens hs !! g = Some (Some x) -> gis_node x = true
  | _ => True
  end.
Lemma e_step env o hs : no_range o -> (forall s, o <> OLook s) -> gtyped o hs -> er bres (@hstep W env (hide_op o) (bhs hs)) (@hstep W env o hs).
Proof.
  intros Hr Hl Ht.
  assert (Hs : forall i (D R : id -> hm (hst * obs)), (forall x, er bres (D x) (R x)) -> er bres (h_slot (h_handles (bhs hs) !! i) ≫= D) (h_slot (h_handles hs !! i) ≫= R)).
  { intros i D R H. eapply er_bind; [apply e_hslot|exact H]. }
  assert (Hg : forall i (D R : green -> hm (hst * obs)), (forall x, h_greens hs !! i = Some (Some x) -> er bres (D (bare x)) (R x)) ->
    er bres (h_slot (h_greens (bhs hs) !! i) ≫= D) (h_slot (h_greens hs !! i) ≫= R)).
  { intros i D R H h. cbn [bhs h_greens]. rewrite (list_lookup_fmap (fmap bare)). destruct (h_greens hs !! i) as [[x|]|] eqn:E; [|done|done]. exact (H x eq_refl h). }
  assert (Hb : forall d r, er bare d r -> er bres (d ≫= fun g => mret (hgadd g (bhs hs), None)) (r ≫= fun g => mret (hgadd g hs, None))).
  { intros d r H. eapply er_bind; [exact H|]. intros g. apply er_ret. unfold bres. cbn [fst snd]. by rewrite bhs_gadd. }
  destruct o; cbn [hide_op hstep]; try (exfalso; exact Hr).
  - apply Hb, er_green_build; [done|]. intros a. done.
  - rewrite gslots_bare. destruct (mapM _ els) as [gs|]; cbn [option_map]; [|apply er_panic]. apply Hb, er_green_build; [done|]. intros a. apply rer_new.
  - apply Hg. intros x _. eapply er_bind; [by apply er_green_drop|]. intros _. apply er_ret. unfold bres. cbn [fst snd]. by rewrite bhs_gdel.
  - apply Hg. intros x _. eapply er_bind; [by apply er_green_own|]. intros _. eapply (er_bind same_); [destruct mut; [apply e_new_root_mut|apply e_new_root]|].
    intros y. by apply er_ret.
  - apply Hs. intros x. eapply er_bind; [apply er_green|]. intros g. eapply er_bind; [by apply er_green_own|]. intros _. apply er_ret. unfold bres. cbn [fst snd]. by rewrite bhs_gadd.
  - apply Hs. intros x. ers.
  - apply Hs. intros x. ers.
  - apply Hs. intros x. ers.
  - apply Hs. intros x. ers.
  - apply Hs. intros x. ers.
  - apply Hs. intros x. ers.
  - apply Hs. intros x. ers.
  - apply Hs. intros x. cbn [bhs h_handles]. destruct (mapM _ ins); [|apply er_panic]. eapply er_bind; [apply e_splice|]. intros _. apply er_ret.
    unfold bres. cbn [fst snd]. by rewrite bhs_dels.
  - apply Hs. intros x. eapply er_bind; [apply er_green|]. intros g. eapply er_bind; [apply e_children_new|]. intros it.
    rewrite gchildren_bare, map_length. eapply (er_bind same_); [|intros ?; by apply er_ret]. apply e_detach_loop. apply e_kids_next.
  - apply Hs. intros x. eapply er_bind; [apply er_green|]. intros g. eapply er_bind; [apply e_by_kind_new|]. intros nx.
    rewrite gchildren_bare, map_length. eapply (er_bind same_); [|intros ?; by apply er_ret]. apply e_by_kind_loop.
  - by destruct (Hl s).
  - apply Hg. intros x Hx. eapply er_bind; [by apply er_green_read|]. intros _. rewrite gslots_bare. destruct (mapM _ els) as [gs|]; cbn [option_map]; [|apply er_panic].
    apply Hb, er_green_build; [done|]. intros a'. by apply rer_splice, Ht.
  - apply Hg. intros x Hx. eapply er_bind; [by apply er_green_read|]. intros _. apply Hg. intros y _.
    apply Hb, er_green_build; [done|]. intros a'. by apply rer_replace, Ht.
  - apply Hg. intros x Hx. eapply er_bind; [by apply er_green_read|]. intros _. rewrite kids_bare, (list_lookup_fmap bare). destruct (map snd (gchildren x) !! i) as [y|]; cbn [fmap option_fmap option_map]; [|apply er_panic].
    eapply er_bind; [by apply er_green_own|]. intros _. apply er_ret. unfold bres. cbn [fst snd]. by rewrite bhs_gadd.
  - apply Hg. intros x Hx. eapply er_bind; [by apply er_green_read|]. intros _. eapply er_bind; [apply e_text_len|]. intros l. apply er_ret.
    unfold bres, hide_look. cbn [fst snd option_map l_mut l_index l_kind l_tree]. rewrite erase_bare. by destruct x.
Qed.
Lemma e_step_weak env o hs : no_range o -> gtyped o hs -> erw bres (@hstep W env (hide_op o) (bhs hs)) (@hstep W env o hs).
Proof.
  intros Hr Ht. destruct o; try (apply er_weak, e_step; done).
  cbn [hide_op hstep]. eapply erw_bind; [apply er_weak, e_hslot|]. intros x. eapply erw_bind; [apply e_look|]. intros l. by apply er_weak, er_ret.
Qed.

(** ** Without text nothing gets too long *)
Lemma sok_bind {A B} (s : sres A) (f : A -> sres B) b : s ≫= f = SOk b -> exists a, s = SOk a /\ f a = SOk b.
Proof. destruct s as [a| | |]; [|done|done|done]. intros H. by exists a. Qed.
Lemma of_slot_ok {A} (o : option (option A)) a : of_slot o = SOk a -> o = Some (Some a).
Proof. destruct o as [[]|]; simpl; congruence. Qed.
Lemma s_elem_ok st hh m x : s_elem st hh = SOk (m, x) -> exists t, s_trees st !! hh.1 = Some (m, t) /\ tsub t hh.2 = Some x.
Proof. unfold s_elem. destruct (s_trees st !! hh.1) as [[m' t]|]; [|done]. destruct (tsub t hh.2) eqn:E; [|done]. intros [= <- <-]. by exists t. Qed.
Lemma mute_green st g t : mute st -> s_greens st !! g = Some (Some t) -> ttext t = [].
Proof. intros [_ H] E. rewrite Forall_lookup in H. exact (H _ _ E). Qed.
Lemma mute_greens st els ts : mute st -> mapM (fun g => mjoin (s_greens st !! g)) els = Some ts -> Forall (fun t => ttext t = []) ts.
Proof.
  intros Hm. revert ts. induction els as [|e els IH]; intros ts; cbn [mapM]; [intros [= <-]; constructor|].
  destruct (s_greens st !! e) as [[t|]|] eqn:E; [|done|done]. simpl. destruct (mapM _ els) as [ts'|] eqn:E'; [|done]. intros [= <-].
  constructor; [by eapply mute_green|]. by apply IH.
Qed.
Lemma mute_elem st hh m x : mute st -> s_elem st hh = SOk (m, x) -> ttext x = [].
Proof. intros Hm (t&Ht&Hx)%s_elem_ok. eapply mute_sub; [exact Hx|]. by eapply mute_tree. Qed.
Lemma mute_add_green t st : mute st -> ttext t = [] -> mute (add_green t st).
Proof. intros [H1 H2] Ht. split; [done|]. simpl. apply Forall_app. split; [done|]. by apply Forall_singleton. Qed.
Lemma mute_add_tree m t st : mute st -> ttext t = [] -> mute (add_tree m t st).
Proof. intros [H1 H2] Ht. split; [|done]. simpl. apply Forall_app. split; [done|]. by apply Forall_singleton. Qed.
Lemma mute_children t : ttext t = [] -> is_node t = true -> Forall (fun c => ttext c = []) (tchildren t).
Proof. destruct t as [k cs|]; [|done]. intros H _. by apply (mute_kids k). Qed.
Lemma mute_attach_all s ins : forall i st st1, mute st -> s_attach_all s i ins st = SOk st1 -> mute st1.
Proof.
  induction ins as [|c ins IH]; intros i st st1 Hm; cbn [s_attach_all]; [by intros [= <-]|].
  intros ([]&_&(st0&E&H)%sok_bind)%sok_bind. eapply IH; [|exact H]. by eapply mute_attach.
Qed.
Lemma mute_splice s a b ins st st1 : mute st -> s_splice s a b ins st = SOk st1 -> mute st1.
Proof.
  intros Hm. unfold s_splice. intros (hh&_&([m x]&_&([]&_&([]&_&(st0&E&H)%sok_bind)%sok_bind)%sok_bind)%sok_bind)%sok_bind.
  eapply mute_attach_all; [|exact H]. destruct (_ && _); [by eapply mute_detach|]. by injection E as <-.
Qed.
Lemma mute_detach_first f hh st o : mute st -> s_detach_first f hh st = SOk o -> mute (default st o).
Proof.
  intros Hm. unfold s_detach_first. intros ([m x]&_&([]&_&H)%sok_bind)%sok_bind. destruct (first_at f (tchildren x) 0); [|by injection H as <-].
  apply sok_bind in H as (st1&E&[= <-]). simpl. by eapply mute_detach.
Qed.
Lemma mute_detach_all fuel f hh : forall st st1, mute st -> s_detach_all fuel f hh st = SOk st1 -> mute st1.
Proof.
  induction fuel as [|fuel IH]; intros st st1 Hm; cbn [s_detach_all]; [by intros [= <-]|]. intros (o&E&H)%sok_bind.
  pose proof (mute_detach_first _ _ _ _ Hm E) as Hm'. destruct o as [st0|]; [by eapply IH|]. by injection H as <-.
Qed.
Lemma mute_step o st st1 x : mute st -> s_step (hide_op o) st = SOk (st1, x) -> mute st1.
Proof.
  intros Hm. destruct o; cbn [hide_op s_step].
  - intros ([]&E&[= <- <-])%sok_bind. apply mute_add_green; [done|]. unfold ill_unless in E. simpl. unfold rest in *.
    destruct (blen s <=? u32_max)%N eqn:Eb; [done|]. by rewrite Eb in E.
  - destruct (mapM _ els) as [ts|] eqn:E; [|done]. intros ([]&_&[= <- <-])%sok_bind. apply mute_add_green; [done|]. apply mute_kids. by eapply mute_greens.
  - intros (t&E&[= <- <-])%sok_bind. destruct Hm as [H1 H2]. split; [done|]. simpl. by apply Forall_insert.
  - intros (t&E%of_slot_ok&([]&_&[= <- <-])%sok_bind)%sok_bind. apply mute_add_tree; [done|]. by eapply mute_green.
  - intros (hh&_&([m y]&E&[= <- <-])%sok_bind)%sok_bind. apply mute_add_green; [done|]. by eapply mute_elem.
  - by intros (hh&_&[= <- <-])%sok_bind.
  - by intros (hh&_&[= <- <-])%sok_bind.
  - intros (hh&_&H)%sok_bind. destruct (s_trees st !! hh.1) as [[m t]|]; [|done]. by apply sok_bind in H as (q&_&[= <- <-]).
  - intros (hh&_&H)%sok_bind. destruct (s_trees st !! hh.1) as [[m t]|]; [|done]. apply sok_bind in H as (q&_&[= <- <-]). by destruct (_ && _).
  - intros (hh&_&([m y]&_&([]&_&([]&_&H)%sok_bind)%sok_bind)%sok_bind)%sok_bind. destruct (s_trees st !! hh.1) as [[m' t]|] eqn:E; [|done]. injection H as <- <-.
    apply mute_add_tree; [done|]. by eapply mute_tree.
  - intros (hh&_&([m y]&E&([]&_&[= <- <-])%sok_bind)%sok_bind)%sok_bind. apply mute_add_tree; [done|]. by eapply mute_elem.
  - intros (hh&_&(st0&E&[= <- <-])%sok_bind)%sok_bind. by eapply mute_detach.
  - intros (st0&E&[= <- <-])%sok_bind. by eapply mute_splice.
  - unfold s_detach_kids. intros (st0&(hh&_&(q&E&[= <-])%sok_bind)%sok_bind&[= <- <-])%sok_bind. by eapply mute_detach_first.
  - unfold s_detach_by_kind. intros (st0&(hh&_&([m' y]&_&E)%sok_bind)%sok_bind&[= <- <-])%sok_bind. by eapply mute_detach_all.
  - by intros (hh&_&(l&_&[= <- <-])%sok_bind)%sok_bind.
  - by intros (hh&_&([m y]&_&([]&_&([q r]&_&([]&_&[= <- <-])%sok_bind)%sok_bind)%sok_bind)%sok_bind)%sok_bind.
  - intros (t&E%of_slot_ok&([]&Hn&H)%sok_bind)%sok_bind. destruct (mapM _ els) as [ts|] eqn:Ets; [|done].
    apply sok_bind in H as ([]&_&([]&_&[= <- <-])%sok_bind). apply mute_add_green; [done|]. apply mute_kids.
    assert (Hk : Forall (fun c => ttext c = []) (tchildren t)). { apply mute_children; [by eapply mute_green|]. by destruct (is_node t). }
    apply Forall_app. split; [by apply Forall_take|]. apply Forall_app. split; [by eapply mute_greens|by apply Forall_drop].
  - intros (t&E%of_slot_ok&([]&Hn&(y&E2%of_slot_ok&([]&_&[= <- <-])%sok_bind)%sok_bind)%sok_bind)%sok_bind. apply mute_add_green; [done|]. apply mute_kids.
    assert (Hk : Forall (fun c => ttext c = []) (tchildren t)). { apply mute_children; [by eapply mute_green|]. by destruct (is_node t). }
    apply Forall_insert; [done|]. by eapply mute_green.
  - intros (t&E%of_slot_ok&([]&Hn&H)%sok_bind)%sok_bind. destruct (tchildren t !! i) as [y|] eqn:Ey; [|done]. injection H as <- <-. apply mute_add_green; [done|].
    assert (Hk : Forall (fun c => ttext c = []) (tchildren t)). { apply mute_children; [by eapply mute_green|]. by destruct (is_node t). }
    rewrite Forall_lookup in Hk. by eapply Hk.
  - by intros (t&E%of_slot_ok&[= <- <-])%sok_bind.
Qed.
Lemma mute_short k ts : Forall (fun t => ttext t = []) ts -> ~ (u32_max < blen (ttext (Node k ts)))%N.
Proof. intros H%(mute_kids k). rewrite H. by compute. Qed.
Lemma mute_not_long o st : mute st -> s_step (hide_op o) st <> SIll -> ~ too_long (hide_op o) st.
Proof.
  intros Hm Hill. destruct o; cbn [hide_op too_long]; try (by intros []).
  - intros (ts&E&Hl). revert Hl. apply mute_short. by eapply mute_greens.
  - intros (pre&c&post&st1&x&_&Hs&(hc&st2&hh&hc'&m&t&mc&tc&_&H2&_&_&H5&H6&H7)).
    pose proof (mute_step (OSplice s a b pre) st st1 x Hm Hs) as Hm1. pose proof (mute_detach _ _ _ Hm1 H2) as Hm2.
    rewrite mute_insert in H7; [by compute in H7|by eapply mute_tree|by eapply mute_tree].
  - intros (t&ts&E1&E2&Hl). revert Hl. apply mute_short.
    assert (Hn : is_node t = true). { cbn [hide_op s_step] in Hill. rewrite E1 in Hill. simpl in Hill. by destruct (is_node t). }
    pose proof (mute_children t (mute_green _ _ _ Hm E1) Hn) as Hk.
    apply Forall_app. split; [by apply Forall_take|]. apply Forall_app. split; [by eapply mute_greens|by apply Forall_drop].
  - intros (t&y&E1&E2&Hl). revert Hl. apply mute_short.
    assert (Hn : is_node t = true). { cbn [hide_op s_step] in Hill. rewrite E1 in Hill. simpl in Hill. by destruct (is_node t). }
    pose proof (mute_children t (mute_green _ _ _ Hm E1) Hn) as Hk. apply Forall_insert; [done|]. by eapply mute_green.
Qed.

(** ** Release builds on trees with text *)
Section wrapped.
Context (env : henv) (Henv : henv_ok env).

Lemma typed_greens o st hs h : simulates st (bhs hs) (bh h) -> s_step (hide_op o) st <> SIll -> gtyped o hs.
Proof.
  intros (zs&lk&Hsim) Hi.
  assert (H : forall g x, h_greens hs !! g = Some (Some x) -> s_greens st !! g = Some (Some (erase (bare x)))).
  { intros g x Hx. rewrite (sm_greens _ _ _ _ _ _ Hsim). apply lookup_map_some. cbn [bhs h_greens]. by apply lookup_map_some. }
  destruct o; try done; intros x Hx; cbn [hide_op s_step] in Hi; rewrite (H _ _ Hx) in Hi; by destruct x.
Qed.
Lemma r_step o st hs h : no_range o -> mute st -> simulates st (bhs hs) (bh h) -> s_step (hide_op o) st <> SIll ->
  match @hstep W env o hs h with
  | (Ok (hs', x), h') => exists st', s_step (hide_op o) st = SOk (st', option_map hide_look x) /\ simulates st' (bhs hs') (bh h') /\ mute st'
  | (Err Panic, _) => s_step (hide_op o) st = SPanic \/ s_step (hide_op o) st = SStuck \/ exists s, o = OLook s
  | (Err Diverge, _) => s_step (hide_op o) st = SStuck
  | (Err UB, _) => False
  end.
Proof using Henv.
  intros Hr Hm Hs Hi. pose proof (typed_greens _ _ _ _ Hs Hi) as Ht. pose proof (e_step_weak env o hs Hr Ht h) as He.
  pose proof (sim_step env Henv (hide_op o) st (bhs hs) (bh h) Hs) as Hd. pose proof (x_step env Henv (hide_op o) st (bhs hs) (bh h) Hs) as [Hx1 Hx2].
  pose proof (mute_not_long o st Hm Hi) as Hnl. pose proof (a_step env (hide_op o) (bhs hs) (bh h)) as Ha. pose proof (mute_step o st) as Hms.
  assert (Hp : (forall s, o <> OLook s) -> forall h', @hstep W env o hs h = (Err Panic, h') -> (@hstep W env (hide_op o) (bhs hs) (bh h)).1 = Err Panic).
  { intros Hl h' E. pose proof (e_step env o hs Hr Hl Ht h) as H. by rewrite E in H. }
  assert (Hlk : (exists s, o = OLook s) \/ forall s, o <> OLook s) by (destruct o; eauto; right; intros ?; done).
  unfold meets in Hd. destruct (s_step (hide_op o) st) as [[st' x']| | |]; [| | |done].
  - apply wp_ok in Hd as ([hs' x]&h'&E&Ex&Hsim'). simpl in Ex, Hsim'. subst x'.
    assert (Ew : @hstep W env (hide_op o) (bhs hs) (bh h) = (Ok (hs', x), h')). { rewrite E in Ha. destruct Ha as [Ha|Ha]; [exact Ha|discriminate Ha]. }
    rewrite Ew in He, Hp. destruct (@hstep W env o hs h) as [[[hs1 x1]|e] h1].
    + unfold bres in He. simpl in He. injection He as -> -> ->. exists st'. split_and!; [done|done|by eapply Hms].
    + destruct e; [|discriminate He|discriminate He]. destruct Hlk as [Hlk|Hlk]; [by right; right|]. discriminate (Hp Hlk _ eq_refl).
  - destruct (Hx1 eq_refl) as [Hx|Hx]; [|by destruct Hnl]. rewrite Hx in He. destruct (@hstep W env o hs h) as [[[hs1 x1]|e] h1].
    + rewrite He in Hd. discriminate Hd.
    + destruct e; [by left|rewrite Hd in He; discriminate He|rewrite Hd in He; discriminate He].
  - destruct (Hx2 eq_refl) as [Hx|Hx]; [|by destruct Hx]. rewrite Hx in He. destruct (@hstep W env o hs h) as [[[hs1 x1]|e] h1].
    + rewrite He in Hd. destruct Hd as [Hd|Hd]; discriminate Hd.
    + destruct e; [by right; left| |done]. rewrite He in Hd. destruct Hd as [Hd|Hd]; discriminate Hd.
Qed.
Lemma r_run prog : forall st hs h, Forall no_range prog -> mute st -> simulates st (bhs hs) (bh h) -> s_run (map hide_op prog) st <> SIll ->
  match @hrun W env prog hs h with
  | (Ok (hs', os), h') => exists st', s_run (map hide_op prog) st = SOk (st', map (option_map hide_look) os) /\ simulates st' (bhs hs') (bh h') /\ mute st'
  | (Err Panic, _) => s_run (map hide_op prog) st = SPanic \/ s_run (map hide_op prog) st = SStuck \/
      exists pre s post hs1 os1 h1, prog = pre ++ OLook s :: post /\ @hrun W env pre hs h = (Ok (hs1, os1), h1) /\ (@hstep W env (OLook s) hs1 h1).1 = Err Panic
  | (Err Diverge, _) => s_run (map hide_op prog) st = SStuck
  | (Err UB, _) => False
  end.
Proof using Henv.
  induction prog as [|o prog IH]; intros st hs h Hr Hm Hs Hi; [by exists st|]. apply Forall_cons in Hr as [Hr1 Hr]. cbn [map s_run hrun] in Hi |- *.
  assert (Hi1 : s_step (hide_op o) st <> SIll) by (intros E; by rewrite E in Hi).
  pose proof (r_step o st hs h Hr1 Hm Hs Hi1) as H. unfold mbind at 1, hm_bind. destruct (@hstep W env o hs h) as [[[hs1 x1]|e] h1] eqn:Eo.
  - destruct H as (st1&E&Hs1&Hm1). rewrite E in Hi |- *. cbn [mbind sres_bind] in Hi |- *.
    assert (Hi2 : s_run (map hide_op prog) st1 <> SIll) by (intros E2; by rewrite E2 in Hi). specialize (IH st1 hs1 h1 Hr Hm1 Hs1 Hi2).
    unfold mbind at 1, hm_bind. destruct (@hrun W env prog hs1 h1) as [[[hs2 os]|e] h2].
    + destruct IH as (st2&E2&Hs2&Hm2). rewrite E2. by exists st2.
    + destruct e; [|done|by rewrite IH]. destruct IH as [->|[->|(pre&s&post&hs3&os3&h3&->&E3&Ep)]]; [by left|by right; left|]. right. right.
      exists (o :: pre), s, post, hs3, (x1 :: os3), h3. split_and!; [done| |done]. cbn [hrun]. unfold mbind at 1, hm_bind. rewrite Eo. unfold mbind, hm_bind. by rewrite E3.
  - destruct e; [|done|by rewrite H]. destruct H as [->|[->|(s&->)]]; [by left|by right; left|]. right. right.
    exists [], s, prog, hs, [], h. split_and!; [done|done|by rewrite Eo].
Qed.
Lemma mute_init : mute s_init.
Proof. split; apply Forall_nil_2. Qed.
Lemma r_client prog : Forall no_range prog -> s_run (map hide_op prog) s_init <> SIll ->
  match @client W env prog with
  | (Ok (hs, os), h) => exists st, s_run (map hide_op prog) s_init = SOk (st, map (option_map hide_look) os) /\ simulates st (bhs hs) (bh h)
  | (Err Panic, _) => s_run (map hide_op prog) s_init = SPanic \/ s_run (map hide_op prog) s_init = SStuck \/
      exists pre s post hs1 os1 h1, prog = pre ++ OLook s :: post /\ @client W env pre = (Ok (hs1, os1), h1) /\ (@hstep W env (OLook s) hs1 h1).1 = Err Panic
  | (Err Diverge, _) => s_run (map hide_op prog) s_init = SStuck
  | (Err UB, _) => False
  end.
Proof using Henv.
  intros Hr Hi. assert (Hs : simulates s_init (bhs h_init) (bh (HP ∅ [] 0))).
  { assert (bh (HP ∅ [] 0) = HP ∅ [] 0) as -> by (unfold bh; simpl; by rewrite fmap_empty). apply simulates_init. }
  pose proof (r_run prog s_init h_init (HP ∅ [] 0) Hr mute_init Hs Hi) as H. unfold client. destruct (@hrun W env prog h_init (HP ∅ [] 0)) as [[[hs os]|[]] h]; [|done|done|done].
  destruct H as (st&H1&H2&_). by exists st.
Qed.
End wrapped.

(** ** A text of 2^32 bytes that is edited *)
Lemma mute_dtree n : ttext (hide (dtree n)) = [].
Proof. induction n as [|n IH]; [done|]. cbn [dtree hide map]. apply mute_kids. by repeat constructor. Qed.
Lemma hdoubled_run n : s_run (map hide_op (doubled n)) s_init = SOk (SS [] [] (map (fun i => Some (hide (dtree i))) (seq 0 (S n))) [], replicate (S n) None).
Proof.
  induction n as [|n IH]; [done|]. unfold doubled. rewrite seq_S, map_app, app_comm_cons. fold (doubled n).
  rewrite map_app, s_run_app, IH. clear IH. set (st := SS _ _ _ _). cbn [mbind sres_bind map s_run Nat.add hide_op s_step].
  assert (E : mapM (fun g => mjoin (s_greens st !! g)) [n; n] = Some [hide (dtree n); hide (dtree n)]).
  { unfold mapM, st. cbn [s_greens]. rewrite (list_lookup_fmap (fun i => Some (hide (dtree i)))), lookup_seq_lt by lia. done. }
  rewrite E. change (Node (enc 0 None) [hide (dtree n); hide (dtree n)]) with (hide (dtree (S n))). rewrite mute_dtree.
  change (panic_unless (blen [] <=? u32_max)%N) with (SOk ()). cbn [mbind sres_bind]. unfold add_green, st. cbn [s_trees s_handles s_greens s_leaked].
  rewrite (seq_S (S n) 0), map_app, (replicate_S_end (S n)). done.
Qed.
(** example: edit the node in green variable [n] *)
Definition edits (n : nat) : list op := [ORoot true n; ONav NFirstChildOrToken 0; ODetach 1; OGreen 0; OGreenLook (S n)].
Lemma edits_run L n k x : length L = S n -> L !! n = Some (Some (Node k [x; x])) ->
  exists st, s_run (edits n) (SS [] [] L []) = SOk (st, [None; None; None; None; Some (Look false None k (0%N, blen (ttext (Node k [x]))) (Node k [x]))]).
Proof.
  intros Hl HL. unfold edits. cbn. rewrite HL. cbn. rewrite lookup_app_r by (rewrite Hl; lia).
  rewrite Hl, Nat.sub_diag. cbn. eexists. done.
Qed.
