(** * Theorems: child indices of 32 bits (C82)

    [f_i idx32] is the function [f] of Cursor.v with every [index as u32] of the code written out
    (Index32.v); [as_cursor_holds] says that with the identity in place of [idx32] it is [f].
    [w32] is 2^32.  [narrow root]: no node of the tree has more than 2^32 children.
    [as_shown c]: the element [c] with its index taken modulo 2^32. *)
From Verif Require Import Index32Facts PropertiesCursor.
Local Open Scope nat_scope.

(** ** C82 *)
(** in a narrow tree, every function gives what it gives with unbounded indices *)
Theorem c82_narrow root p c m r o :
  narrow root -> cursor_at root p = Some c ->
  (first_child_i idx32 c = first_child c /\ first_child_by_kind_i idx32 m c = first_child_by_kind m c /\
   last_child_i idx32 c = last_child c /\ first_child_or_token_i idx32 c = first_child_or_token c /\
   first_child_or_token_by_kind_i idx32 m c = first_child_or_token_by_kind m c /\
   last_child_or_token_i idx32 c = last_child_or_token c) /\
  (next_sibling_i idx32 c = next_sibling c /\ next_sibling_by_kind_i idx32 m c = next_sibling_by_kind m c /\
   prev_sibling_i idx32 c = prev_sibling c /\ next_sibling_or_token_i idx32 c = next_sibling_or_token c /\
   next_sibling_or_token_by_kind_i idx32 m c = next_sibling_or_token_by_kind m c /\
   prev_sibling_or_token_i idx32 c = prev_sibling_or_token c) /\
  (first_token_i idx32 c = first_token c /\ last_token_i idx32 c = last_token c /\
   next_token_i idx32 c = next_token c /\ prev_token_i idx32 c = prev_token c) /\
  (children_i idx32 c = children c /\ children_with_tokens_i idx32 c = children_with_tokens c /\
   descendants_i idx32 c = descendants c /\ descendants_with_tokens_i idx32 c = descendants_with_tokens c) /\
  (token_at_offset_i idx32 c o = token_at_offset c o /\ covering_element_i idx32 c r = covering_element c r /\
   child_or_token_at_range_i idx32 c r = child_or_token_at_range c r).
Proof.
  intros Hn Hc. pose proof (cursor_at_good _ _ _ Hn Hc) as Hg. repeat split.
  - by apply first_child_ans.
  - by apply first_child_by_kind_ans.
  - by apply last_child_ans.
  - by apply first_child_or_token_ans.
  - by apply first_child_or_token_by_kind_ans.
  - by apply last_child_or_token_ans.
  - by apply next_sibling_ans.
  - by apply next_sibling_by_kind_ans.
  - by apply prev_sibling_ans.
  - by apply next_sibling_or_token_ans.
  - by apply next_sibling_or_token_by_kind_ans.
  - by apply prev_sibling_or_token_ans.
  - by apply first_token_f_ans.
  - by apply last_token_f_ans.
  - by apply next_token_same.
  - by apply prev_token_same.
  - by apply children_same.
  - by apply children_with_tokens_same.
  - by apply descendants_same.
  - by apply descendants_with_tokens_same.
  - by apply token_at_offset_f_same.
  - by apply covering_element_f_same.
  - by apply child_or_token_at_range_ans.
Qed.
Print Assumptions c82_narrow.

(** one call of [next], in any state of an iterator that holds elements of the tree; a walk may
    have been told to skip a subtree *)
Theorem c82_narrow_iterators root :
  narrow root ->
  let of c := exists p, cursor_at root p = Some c in
  let ofo o := forall c : cursor, o = Some c -> of c in
  (forall it m, of (ci_parent it) -> ofo (ci_next it) ->
     node_children_next_i idx32 it = node_children_next it /\
     element_children_next_i idx32 it = element_children_next it /\
     node_by_kind_i idx32 m it = node_by_kind m it /\ element_by_kind_i idx32 m it = element_by_kind m it) /\
  (forall o m d, ofo o ->
     node_by_kind_next_i idx32 m o = node_by_kind_next m o /\
     element_by_kind_next_i idx32 m o = element_by_kind_next m o /\
     siblings_next_i idx32 d o = siblings_next d o /\
     siblings_with_tokens_next_i idx32 d o = siblings_with_tokens_next d o) /\
  (forall po, of (po_start po) -> (forall e, po_next po = Some e -> of (match e with Enter c | Leave c => c end)) ->
     preorder_next_i idx32 po = preorder_next po /\ preorder_wt_next_i idx32 po = preorder_wt_next po).
Proof.
  intros Hn of ofo.
  assert (Hof : forall c, of c -> good c) by (intros c [p Hp]; by eapply cursor_at_good).
  assert (Hofo : forall o, ofo o -> ogood o) by (intros o H c Hc; by apply Hof, H).
  split; [|split].
  - intros it m Hp Hx. assert (ci_good it) by (split; auto). repeat split.
    + by apply node_children_next_same.
    + by apply element_children_next_same.
    + by apply node_by_kind_ans.
    + by apply element_by_kind_ans.
  - intros o m d Ho%Hofo. repeat split.
    + apply (successors_same (next_sibling_by_kind_i idx32 m) (next_sibling_by_kind m)); [|done].
      intros. by apply next_sibling_by_kind_ans.
    + apply (successors_same (next_sibling_or_token_by_kind_i idx32 m) (next_sibling_or_token_by_kind m)); [|done].
      intros. by apply next_sibling_or_token_by_kind_ans.
    + unfold siblings_next_i, siblings_next. eapply successors_same; [|done].
      intros. destruct d; [by apply next_sibling_ans|by apply prev_sibling_ans].
    + unfold siblings_with_tokens_next_i, siblings_with_tokens_next. eapply successors_same; [|done].
      intros. destruct d; [by apply next_sibling_or_token_ans|by apply prev_sibling_or_token_ans].
  - intros po Hs He. assert (po_good po).
    { split; [auto|]. intros e Hpe. specialize (He e Hpe). destruct e; simpl; auto. }
    split; [by apply preorder_next_same|by apply preorder_wt_next_same].
Qed.
Print Assumptions c82_narrow_iterators.

(** in any tree, the elements that navigation creates have an index modulo 2^32, and it is from
    that index that navigation goes on *)
Theorem c82_shown root p c i o g :
  built root -> cursor_at root p = Some c ->
  first_child_or_token_i idx32 c = Ok (as_shown <$> cursor_at root (p ++ [0])) /\
  last_child_or_token_i idx32 c = Ok (as_shown <$> cursor_at root (p ++ [pred (length (gchildren (c_green c)))])) /\
  next_sibling_or_token_i idx32 (CChild c i o g) = Ok (as_shown <$> cursor_at root (p ++ [i + 1])) /\
  prev_sibling_or_token_i idx32 (CChild c i o g) =
    (if decide (i = 0) then Ok None else Ok (as_shown <$> cursor_at root (p ++ [i - 1]))).
Proof.
  intros H%built_wfg Hc. split; [|split; [|split]].
  - by apply first_shown.
  - by apply last_shown.
  - by eapply next_shown.
  - rewrite (prev_shown root H p c _ i o g Hc eq_refl). destruct i as [|j]; [by rewrite decide_True|].
    rewrite decide_False by lia. by rewrite Nat.sub_succ, Nat.sub_0_r.
Qed.
Print Assumptions c82_shown.

(** [children_with_tokens()] of a node with more than 2^32 children gives the children
    0, 1, ..., 2^32, then again 1, 2, ..., 2^32, and so on: it never ends, and never gives the
    children after 2^32 *)
Theorem c82_wide_children root p c n :
  built root -> cursor_at root p = Some c -> w32 < length (gchildren (c_green c)) ->
  exists l s', length l = n /\ steps (element_children_next_i idx32) (children_new c) l s' /\
    forall k : nat, k < n -> l !! k = as_shown <$> cursor_at root (p ++ [wide_at k]).
Proof.
  intros H%built_wfg Hc Hw. destruct n as [|n]; [exists [], (children_new c); repeat split; [apply steps_nil|lia]|].
  destruct (wide_steps root H p c Hc Hw n) as (l & Hl & Hk & Hs). exists l. eexists. split; [exact Hl|].
  split; [exact Hs|]. intros k Hkn. apply Hk. lia.
Qed.
Print Assumptions c82_wide_children.
Theorem c82_wide_never_ends root p c :
  built root -> cursor_at root p = Some c -> w32 < length (gchildren (c_green c)) ->
  (~ exists l, yields (element_children_next_i idx32) (children_new c) l) /\
  (forall fuel, collect (element_children_next_i idx32) fuel (children_new c) = Err Diverge).
Proof.
  intros H Hc Hw. split.
  - intros [l Hy]. destruct (c82_wide_children root p c (S (length l)) H Hc Hw) as (l' & s' & Hl & Hs & _).
    destruct (steps_yields_prefix _ _ _ _ _ Hs Hy) as [l'' ->]. rewrite app_length in Hl. lia.
  - intros fuel. destruct (c82_wide_children root p c fuel H Hc Hw) as (l' & s' & Hl & Hs & _).
    eapply steps_collect; [exact Hs|lia].
Qed.
Print Assumptions c82_wide_never_ends.
(** [replace_with] on the last child of a node with more than 2^32 children replaces the child
    whose position is that of the last one modulo 2^32 *)
Theorem c82_wide_replace root p c e d al r :
  built root -> cursor_at root p = Some c ->
  last_child_or_token_i idx32 c = Ok (Some e) ->
  cursor_at root (p ++ [pred (length (gchildren (c_green c))) mod w32]) = Some d -> c_kind d = c_kind e ->
  replace_with al e r = replace_with al d r.
Proof.
  intros H%built_wfg Hc He Hd Hk. rewrite (last_shown root H p c Hc) in He. injection He as He.
  rewrite cursor_at_snoc, Hc in He, Hd. cbn [mbind option_bind] in He, Hd. unfold child_at in He, Hd.
  destruct (gchildren (c_green c) !! pred _) as [ch|]; [|discriminate]. injection He as <-.
  destruct (gchildren (c_green c) !! _) as [ch'|]; [|discriminate]. injection Hd as <-.
  apply replace_with_like; [by rewrite Hk|reflexivity|reflexivity].
Qed.
Print Assumptions c82_wide_replace.

(** there are such trees, and the last child is not the one that is replaced *)
Theorem c82_wide_exists n :
  w32 < n -> exists root, built root /\ gis_node root = true /\ length (gchildren root) = n /\
    exists e d, last_child_or_token_i idx32 (CRoot root) = Ok (Some e) /\
      cursor_at root [pred n mod w32] = Some d /\ c_kind d = c_kind e /\ pred n mod w32 <> pred n.
Proof.
  intros Hn. destruct (wide_built n) as (root & Hb & Hnode & Hl & Hk). exists root.
  split; [exact Hb|]. split; [exact Hnode|]. split; [exact Hl|].
  pose proof (built_wfg _ Hb) as Hw. pose proof w32_pos as Hp.
  pose proof (Nat.mod_upper_bound (pred n) w32 ltac:(lia)) as Hm.
  destruct (lookup_lt_is_Some_2 (gchildren root) (pred n)) as [x Hx]; [lia|].
  destruct (lookup_lt_is_Some_2 (gchildren root) (pred n mod w32)) as [y Hy]; [lia|].
  do 2 eexists. split; [|split; [|split]].
  - rewrite (last_shown root Hw [] (CRoot root) (cursor_at_nil root)). cbn [app c_green]. rewrite Hl.
    unfold cursor_at. simpl. unfold child_at. simpl. rewrite Hx. simpl. reflexivity.
  - unfold cursor_at. simpl. unfold child_at. simpl. rewrite Hy. reflexivity.
  - unfold c_kind. cbn [as_shown c_green].
    rewrite (Hk x) by (by eapply elem_of_list_lookup_2). by rewrite (Hk y) by (by eapply elem_of_list_lookup_2).
  - lia.
Qed.
Print Assumptions c82_wide_exists.

Example c82_nonvacuous :
  narrow ex_g /\ cursor_at ex_g [4] = Some (ex_c [4]) /\ gchildren (c_green (ex_c [4])) <> [] /\
  next_sibling_or_token_i idx32 (ex_c [3]) = Ok (Some (ex_c [4])) /\
  prev_sibling_or_token_i idx32 (ex_c [4]) = Ok (Some (ex_c [3])) /\
  (exists root, built root /\ w32 < length (gchildren root)) /\
  wide_at w32 = w32 /\ wide_at (S w32) = 1.
Proof.
  assert (Hn : narrow ex_g) by (apply widest_narrow; vm_compute; reflexivity).
  assert (H3 : cursor_at ex_g [3] = Some (ex_c [3])) by (vm_compute; reflexivity).
  assert (H4 : cursor_at ex_g [4] = Some (ex_c [4])) by (vm_compute; reflexivity).
  split; [exact Hn|]. split; [exact H4|]. split; [vm_compute; discriminate|]. split; [|split; [|split; [|split]]].
  - rewrite (proj1 (next_sibling_or_token_ans _ (cursor_at_good _ _ _ Hn H3))). vm_compute. reflexivity.
  - rewrite (proj1 (prev_sibling_or_token_ans _ (cursor_at_good _ _ _ Hn H4))). vm_compute. reflexivity.
  - destruct (wide_built (S w32)) as (g & Hb & _ & Hl & _). exists g. split; [exact Hb|]. rewrite Hl. lia.
  - pose proof w32_pos as Hp. destruct w32 as [|m] eqn:E; [lia|]. cbn [wide_at]. f_equal. rewrite E.
    apply Nat.mod_small. lia.
  - cbn [wide_at]. rewrite Nat.mod_same; [reflexivity|]. pose proof w32_pos. lia.
Qed.
