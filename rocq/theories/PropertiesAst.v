(** * Theorems: locations, typed accessors, TokenAtOffset (C23 exact, C24, C27, C28, C29) *)
From Verif Require Import AstFacts PropertiesBuilder PropertiesCursor.

(** ** C23, with the choice among several children determined *)
Theorem c23_exact root p c r :
  built root -> cursor_at root p = Some c -> range_ok r -> (c_offset c <= rstart r)%N ->
  exists o, child_or_token_at_range c r = Ok (o ≫= fun i => cursor_at root (p ++ [i])) /\
  match o with
  | Some i => forall j, descends (erase root) p (rstart r) (rend r) j <-> j = i
  | None => forall j, ~ child_covers (erase root) p (rstart r) (rend r) j
  end.
Proof.
  intros H%built_wfg Hc Hr Ho. destruct (child_or_token_at_range_descends root H p c r Hc Hr Ho) as (o&H1&H2).
  exists o. split; [done|]. destruct o as [i|]; [|done]. intros j. split; [|by intros ->].
  intros Hj. by eapply (descends_unique root H p c _ _ j i Hc Hr).
Qed.
Print Assumptions c23_exact.
Example c23_exact_nonvacuous :
  (* two empty nodes and a token meet at byte 5; the last empty node is chosen *)
  child_or_token_at_range (ex_c []) (TR 5 5) = Ok (Some (ex_c [2])) /\ ex_c [2] <> ex_c [1].
Proof. split; [vm_compute; reflexivity|vm_compute; discriminate]. Qed.

(** ** C24 *)
Theorem c24_agree {A} (t : token_at_offset_t A) :
  yields tao_next t (tao_list t) /\
  tao_left t = head (tao_list t) /\ tao_right t = last (tao_list t) /\
  tao_size_hint t = (length (tao_list t), Some (length (tao_list t))) /\
  (forall B (f : A -> B), tao_list (tao_map f t) = map f (tao_list t)) /\
  (forall a t', tao_next t = Ok (Some a, t') -> tao_list t = a :: tao_list t').
Proof.
  split_and!; try (by destruct t).
  - destruct t as [|a|a b]; simpl.
    + by eapply yields_nil.
    + eapply yields_cons; [done|]. by eapply yields_nil.
    + eapply yields_cons; [done|]. eapply yields_cons; [done|]. by eapply yields_nil.
  - intros a t' H. destruct t; simpl in H; [done|by injection H as <- <-|by injection H as <- <-].
Qed.
Print Assumptions c24_agree.
Example c24_nonvacuous : tao_list (TaoBetween 1 2) = [1; 2] /\ tao_right (TaoBetween 1 2) = Some 2.
Proof. done. Qed.

(** ** C27 *)
(** a pointer resolves to the node it was made from exactly when the search for
    its range passes the node and no proper ancestor has the same kind and range *)
Theorem c27_roundtrip_exact root kfr p c ptr :
  built root -> cursor_at root p = Some c -> c_is_node c = true -> ptr_new kfr c = Ok ptr ->
  let a := rstart (ptr_range ptr) in let e := rend (ptr_range ptr) in
  to_node kfr ptr (new_root root) = Ok c <->
  search_path (erase root) a e p /\
  forall q, proper_ancestor q p -> ~ located (erase root) (fun k => kfr k = kfr (c_kind c)) a e q.
Proof.
  intros H%built_wfg Hc Hn Hp a e. unfold ptr_new in Hp. rewrite (c_text_range_at root H p c Hc) in Hp. injection Hp as <-.
  simpl in a, e.
  set (ptr := PTR (kfr (c_kind c)) (TR (c_offset c) (c_offset c + blen (gtext (c_green c))))) in *.
  assert (Hok : range_ok (ptr_range ptr)) by (unfold range_ok; simpl; lia).
  assert (Hroot : gis_node root = true).
  { destruct p as [|i p]; [injection Hc as <-; done|].
    apply cursor_at_gsub in Hc. destruct root; [done|]. simpl in Hc. by destruct i. }
  assert (Hloc : located (erase root) (fun k => kfr k = ptr_kind ptr) a e p).
  { split; [by apply (crange_trange root H)|]. exists (erase (c_green c)). rewrite erase_is_node, erase_kind.
    split; [by apply cursor_at_tsub|done]. }
  destruct (try_to_node_at root H kfr ptr Hok Hroot) as (o&Ho&Hres). unfold to_node. rewrite Ho. cbn [mbind res_bind].
  destruct o as [q|].
  - destruct Hres as (Hs&Hl&Hmin). destruct (cursor_at_is_Some root q) as [d Hd].
    { destruct Hl as [_ (s&Hs'&_)]. by eexists. }
    simpl. rewrite Hd. simpl. split.
    + intros [= ->]. assert (q = p) as -> by (by eapply cursor_at_inj). done.
    + intros [Hsp Hno]. f_equal.
      (* both on the search path: one is a prefix of the other *)
      assert (Hcmp : ancestor_or_self q p \/ ancestor_or_self p q).
      { destruct (pos_cases q p) as [?|[?|(r&i&j&p1&q1&Hq'&Hp'&Hij)]]; [by left|by right|]. exfalso. apply Hij.
        rewrite Hq' in Hs. rewrite Hp' in Hsp.
        replace (r ++ i :: p1) with ((r ++ [i]) ++ p1) in Hs by (by rewrite <- app_assoc).
        replace (r ++ j :: q1) with ((r ++ [j]) ++ q1) in Hsp by (by rewrite <- app_assoc).
        apply search_path_prefix, search_path_snoc_inv in Hs as (_&Hs&_).
        apply search_path_prefix, search_path_snoc_inv in Hsp as (_&Hsp&_).
        rewrite Hq' in Hd. destruct (cursor_at_prefix _ _ _ _ Hd) as [x Hx].
        by apply (descends_unique root H r x a e i j Hx Hok). }
      assert (q = p) as ->; [|congruence].
      destruct Hcmp as [[r Hr]|[r Hr]]; destruct r as [|i r]; [by rewrite app_nil_r in Hr| |by rewrite app_nil_r in Hr|].
      * exfalso. apply (Hno q); [by exists i, r|done].
      * exfalso. apply (Hmin p); [by exists i, r|done].
  - simpl. split; [done|]. intros [Hsp _]. by apply Hres in Hsp.
Qed.
Print Assumptions c27_roundtrip_exact.
(** in particular for a node with text, no proper ancestor of which has the same kind and range *)
Theorem c27_roundtrip_partial root kfr p c ptr :
  built root -> cursor_at root p = Some c -> c_is_node c = true -> ptr_new kfr c = Ok ptr ->
  green_display (c_green c) <> [] ->
  (to_node kfr ptr (new_root root) = Ok c <->
   forall q, proper_ancestor q p -> ~ located (erase root) (fun k => kfr k = kfr (c_kind c)) (rstart (ptr_range ptr)) (rend (ptr_range ptr)) q).
Proof.
  intros H Hc Hn Hp Ht. rewrite (c27_roundtrip_exact root kfr p c ptr H Hc Hn Hp).
  split; [by intros [_ ?]|]. intros Hno. split; [|done]. apply built_wfg in H.
  unfold ptr_new in Hp. rewrite (c_text_range_at root H p c Hc) in Hp. injection Hp as <-. simpl.
  eapply (nonempty_search_path root H (PTR 0 (TR (c_offset c) (c_offset c + blen (gtext (c_green c)))))); simpl; [|done|done|].
  - rewrite green_display_text in Ht. destruct (decide (blen (gtext (c_green c)) = 0%N)) as [Hz|Hz]; [by apply blen_0 in Hz|lia].
  - unfold range_contains, crange. simpl. lia.
Qed.
Print Assumptions c27_roundtrip_partial.
(** an empty node that does not resolve to itself, and a node that resolves to its parent *)
Definition ex_ops3 : list bop :=
  [BStartNode 1; BStartNode 1; BToken 3 [97]; BFinishNode; BStartNode 5; BFinishNode; BStartNode 6; BFinishNode; BFinishNode]%N.
(** example *)
Definition ex_g3 : green := Eval vm_compute in match b_build ex_env Checked cache_empty ex_ops3 with Ok g => g | Err _ => GTok 0 0 [] end.
(** example *)
Definition ex_c3 (p : pos) : cursor := default (CRoot ex_g3) (cursor_at ex_g3 p).
Theorem c27_roundtrip_refuted :
  exists env ch ops root, cenv_ok env /\ cache_reachable env Checked ch /\ b_build env Checked ch ops = Ok root /\
    (exists p c ptr, cursor_at root p = Some c /\ c_is_node c = true /\ ptr_new id c = Ok ptr /\ try_to_node id ptr (new_root root) = Ok None) /\
    (exists p c ptr d, cursor_at root p = Some c /\ c_is_node c = true /\ ptr_new id c = Ok ptr /\
       to_node id ptr (new_root root) = Ok d /\ d <> c).
Proof.
  exists ex_env, cache_empty, ex_ops3, ex_g3. split; [apply ex_env_ok|]. split; [apply ex_cache_reachable|].
  split; [vm_compute; reflexivity|]. split.
  - exists [1], (ex_c3 [1]), (PTR 5 (TR 1 1)). split; [vm_compute; reflexivity|]. split; [vm_compute; reflexivity|].
    split; [vm_compute; reflexivity|]. vm_compute. reflexivity.
  - exists [0], (ex_c3 [0]), (PTR 1 (TR 0 1)), (ex_c3 []). split; [vm_compute; reflexivity|]. split; [vm_compute; reflexivity|].
    split; [vm_compute; reflexivity|]. split; [vm_compute; reflexivity|]. vm_compute. discriminate.
Qed.
Print Assumptions c27_roundtrip_refuted.
Example c27_nonvacuous :
  ptr_new id (ex_c [4]) = Ok (PTR 2 (TR 6 11)) /\ to_node id (PTR 2 (TR 6 11)) (new_root ex_g) = Ok (ex_c [4]).
Proof. vm_compute. done. Qed.

(** ** C28 *)
Theorem c28_sound_total root kfr ptr :
  built root -> gis_node root = true -> range_ok (ptr_range ptr) ->
  exists o, try_to_node kfr ptr (new_root root) = Ok o /\
    match o with
    | Some d => exists q, cursor_at root q = Some d /\
        located (erase root) (fun k => kfr k = ptr_kind ptr) (rstart (ptr_range ptr)) (rend (ptr_range ptr)) q /\
        (* it is the outermost one *)
        forall q', proper_ancestor q' q ->
          ~ located (erase root) (fun k => kfr k = ptr_kind ptr) (rstart (ptr_range ptr)) (rend (ptr_range ptr)) q'
    | None => (rstart (ptr_range ptr) < rend (ptr_range ptr))%N -> forall q,
        ~ located (erase root) (fun k => kfr k = ptr_kind ptr) (rstart (ptr_range ptr)) (rend (ptr_range ptr)) q
    end.
Proof.
  intros H%built_wfg Hn Hr. destruct (try_to_node_at root H kfr ptr Hr Hn) as (o&Ho&Hres).
  eexists. split; [exact Ho|]. destruct o as [q|]; simpl.
  - destruct Hres as (_&Hl&Hmin). destruct (cursor_at_is_Some root q) as [d Hd]; [destruct Hl as [_ (s&Hs&_)]; by eexists|].
    rewrite Hd. by exists q.
  - intros Hne q Hl. eapply Hres; [|exact Hl]. by eapply located_on_path.
Qed.
Print Assumptions c28_sound_total.
Theorem c28_not_a_root root kfr ptr p i c :
  cursor_at root (p ++ [i]) = Some c -> try_to_node kfr ptr c = Ok None.
Proof. intros (c0&ch&_&_&->)%cursor_at_snoc_inv. done. Qed.
Print Assumptions c28_not_a_root.
Theorem c28_ast_ptr {T} root kfr (cast : cursor -> option T) p c t ptr :
  built root -> cursor_at root p = Some c -> cast c = Some t -> ast_ptr_new kfr c = Ok ptr ->
  to_node kfr ptr (new_root root) = Ok c ->
  ast_to_node kfr cast ptr (new_root root) = Ok t /\
  (forall can_cast, ptr_cast can_cast ptr = if can_cast (kfr (c_kind c)) then Some ptr else None).
Proof.
  intros H%built_wfg Hc Ht Hp Hn. split.
  - unfold ast_to_node, ast_try_to_node. unfold to_node in Hn. destruct (try_to_node kfr ptr (new_root root)) as [[d|]|]; [|done|done].
    injection Hn as ->. simpl. by rewrite Ht.
  - intros f. unfold ast_ptr_new, ptr_new in Hp. rewrite (c_text_range_at root H p c Hc) in Hp. by injection Hp as <-.
Qed.
Print Assumptions c28_ast_ptr.
Example c28_nonvacuous :
  (* a stale pointer, and one into another tree *)
  try_to_node id (PTR 2 (TR 5 11)) (new_root ex_g) = Ok None /\ try_to_node id (PTR 2 (TR 50 60)) (new_root ex_g) = Ok None /\
  try_to_node id (PTR 2 (TR 0 5)) (new_root ex_g) = Ok (Some (ex_c [0])).
Proof. vm_compute. done. Qed.

(** ** C29 *)
Theorem c29_children {T} root (cast : cursor -> option T) p c :
  built root -> cursor_at root p = Some c ->
  exists l, at_children root p (sel_from is_node (tchildren (erase (c_green c))) 0) l /\
    yields (ast_children_next cast) (ast_children c) (filter_map cast l) /\
    exists o, is_first_from (fun d => if cast d then true else false) l 0 o /\
      ast_child cast c = Ok (i ← o; d ← l !! i; cast d).
Proof.
  intros H%built_wfg Hc. destruct (children_yields root H p c Hc) as (l&Hy&Hl).
  assert (length l <= length (gchildren (c_green c))) as Hlen.
  { apply Forall2_length in Hl. rewrite <- Hl. unfold sel_from. etransitivity; [apply sel_go_length|].
    rewrite drop_length, erase_children, map_length. unfold kids. rewrite map_length. lia. }
  exists l. split; [done|]. split; [by apply ast_children_yields|].
  destruct (filter_map_next_yields node_children_next cast (children_new c) l (S (length (gchildren (c_green c))))
              (fun _ => True)) as (s'&l'&H1&_); [done|done|done|lia|].
  unfold ast_child, find_map_next. rewrite H1. cbn [mbind res_bind].
  destruct (find_map cast l) as [b|] eqn:E.
  - apply find_map_Some in E as (i&x&Hi&Hx&Hk). exists (Some i). split; [|simpl; rewrite Hi; simpl; by rewrite Hx].
    split; [lia|]. split; [exists x; by rewrite Hx|]. intros k y Hlt Hy'. by rewrite (Hk k y ltac:(lia) Hy').
  - rewrite find_map_None in E. exists None. split; [|done]. intros k y _ Hy'. by rewrite (E _ _ Hy').
Qed.
Print Assumptions c29_children.
Theorem c29_token root kfr k p c :
  built root -> cursor_at root p = Some c ->
  exists o, is_first_from (fun t => is_token t && (kfr (tkind t) =? k)%N) (tchildren (erase (c_green c))) 0 o /\
    answer root p (ast_token kfr k c) o.
Proof.
  intros H%built_wfg Hc. destruct (children_with_tokens_yields root H p c Hc) as (l&Hy&Hl).
  set (f := fun it => if negb (c_is_node it) && (kfr (c_kind it) =? k)%N then Some it else None).
  assert (length l <= length (gchildren (c_green c))) as Hlen.
  { apply Forall2_length in Hl. rewrite <- Hl. unfold sel_from. etransitivity; [apply sel_go_length|].
    rewrite drop_length, erase_children, map_length. unfold kids. rewrite map_length. lia. }
  destruct (filter_map_next_yields element_children_next f (children_new c) l (S (length (gchildren (c_green c))))
              (fun _ => True)) as (s'&l'&H1&_); [done|done|done|lia|].
  unfold answer, ast_token, find_map_next. fold f. rewrite H1. cbn [mbind res_bind].
  set (cs := tchildren (erase (c_green c))) in *.
  assert (Hlk : forall i d, l !! i = Some d -> cursor_at root (p ++ [i]) = Some d).
  { intros i d Hi. destruct (Forall2_lookup_r _ _ _ _ _ Hl Hi) as (j&Hj&Hd). rewrite sel_from_any in Hj.
    apply lookup_seq in Hj as [-> _]. done. }
  assert (Hlk' : forall i x, cs !! i = Some x -> exists d, l !! i = Some d /\ x = erase (c_green d)).
  { intros i x Hi. destruct (lookup_lt_is_Some_2 l i) as [d Hd].
    - apply Forall2_length in Hl. rewrite <- Hl, sel_from_any, seq_length, Nat.sub_0_r. by eapply lookup_lt_Some.
    - exists d. split; [done|]. pose proof (Hlk i d Hd) as Hcd. destruct (child_cursor root H _ _ _ _ Hc Hcd) as (_&Ht&_).
      fold cs in Ht. congruence. }
  assert (Hf : forall d, is_token (erase (c_green d)) && (kfr (tkind (erase (c_green d))) =? k)%N = true <-> f d = Some d).
  { intros d. unfold f, is_token. rewrite erase_is_node, erase_kind. unfold c_is_node, c_kind. by destruct (_ && _). }
  assert (Hfn : forall d, is_token (erase (c_green d)) && (kfr (tkind (erase (c_green d))) =? k)%N = false <-> f d = None).
  { intros d. unfold f, is_token. rewrite erase_is_node, erase_kind. unfold c_is_node, c_kind. by destruct (_ && _). }
  destruct (find_map f l) as [b|] eqn:E.
  - apply find_map_Some in E as (i&x&Hi&Hx&Hk). assert (b = x) as -> by (unfold f in Hx; destruct (_ && _); congruence).
    exists (Some i). split; [|simpl; by rewrite (Hlk i x Hi)]. split; [lia|]. split.
    + exists (erase (c_green x)). split; [|by apply Hf]. destruct (child_cursor root H _ _ _ _ Hc (Hlk i x Hi)) as (_&Ht&_). done.
    + intros k' y Hlt Hy'. destruct (Hlk' _ _ Hy') as (d&Hd&->). apply Hfn. apply (Hk k' d); [lia|done].
  - rewrite find_map_None in E. exists None. split; [|done]. intros k' y _ Hy'. destruct (Hlk' _ _ Hy') as (d&Hd&->). apply Hfn. by eapply E.
Qed.
Print Assumptions c29_token.
Example c29_nonvacuous :
  let cast c := if (c_kind c =? 5)%N then Some (c_path c) else None in
  ast_child cast (ex_c []) = Ok (Some [1]) /\ collect (ast_children_next cast) 9 (ast_children (ex_c [])) = Ok [[1]; [2]] /\
  ast_token id 4 (ex_c [4]) = Ok (Some (ex_c [4; 1])).
Proof. vm_compute. done. Qed.
