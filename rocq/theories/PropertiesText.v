(** * Theorems: SyntaxText (C30, C31, C32)

    [text_of root t]: [t] is obtainable by [SyntaxNode::text] on a node of the
    tree and any number of [slice] calls.  The string of [t] is a slice of what
    [Display] prints for its node. *)
From Verif Require Import TextFacts PropertiesBuilder PropertiesCursor.
Local Open Scope N_scope.

(** ** C30 *)
Theorem c30_node_text root p c :
  built root -> coherent root -> cursor_at root p = Some c ->
  exists t, st_new c = Ok t /\ st_to_string t = Ok (green_display (c_green c)) /\
    st_len t = blen (green_display (c_green c)) /\ (st_is_empty t = true <-> green_display (c_green c) = []).
Proof.
  intros H%built_wfg Hco Hc. unfold st_new. rewrite (c_text_range_at root H p c Hc). simpl. eexists. split; [done|].
  rewrite green_display_text. set (s := gtext (c_green c)).
  assert (text_in root (ST c (TR (c_offset c) (c_offset c + blen s)))) as Ht by (unfold text_in; simpl; split; [by exists p|]; fold s; lia).
  assert (text_str (ST c (TR (c_offset c) (c_offset c + blen s))) = Ok s) as Hs.
  { unfold text_str. simpl. fold s. rewrite N.sub_diag. replace (c_offset c + blen s - c_offset c) with (blen s) by lia. apply str_slice_full. }
  split; [by rewrite (st_to_string_spec root H Hco _ Ht)|]. split; [by rewrite (st_len_spec root _ _ Ht Hs)|].
  unfold st_is_empty, range_is_empty. simpl. rewrite N.eqb_eq, <- blen_nil_iff. lia.
Qed.
Print Assumptions c30_node_text.

(** the string of any text is a slice of its node's text; asking for it panics
    exactly when that slice does not exist (a bound inside a char) *)
Theorem c30_to_string root t :
  built root -> coherent root -> text_of root t ->
  let s := green_display (c_green (st_node t)) in
  let o := c_offset (st_node t) in
  let a := rstart (st_range t) in let b := rend (st_range t) in
  (o <= a /\ a <= b /\ b <= o + blen s) /\
  (forall m, st_to_string t = Ok m <-> is_slice s (a - o) (b - o) m) /\
  (forall e, st_to_string t = Err e -> e = Panic) /\
  (forall m, st_to_string t = Ok m -> st_len t = blen m) /\
  match st_chunks t with
  | Ok cs => st_to_string t = Ok (concat cs)
  | Err e => st_to_string t = Err e
  end.
Proof.
  intros H%built_wfg Hco Ht%(text_of_in root H) s o a b. subst s. rewrite green_display_text.
  rewrite (st_to_string_spec root H Hco t Ht). split; [by destruct Ht as (_&?&?&?)|].
  split; [intros m; by rewrite is_slice_iff|]. split; [intros e; apply str_slice_err|].
  split; [intros m; by apply (st_len_spec root)|]. rewrite <- (st_chunks_spec root H Hco t Ht). by destruct (st_chunks t).
Qed.
Print Assumptions c30_to_string.

(** [slice] panics exactly when its bounds are out of order or past the end, in
    both arithmetic profiles; the result denotes the slice of the text's string *)
Theorem c30_slice root t pr rs re :
  built root -> coherent root -> text_of root t -> default 0 rs <= u32_max -> default 0 re <= u32_max ->
  let s := default 0 rs in let e := default (st_len t) re in
  (s <= e /\ e <= st_len t ->
   exists t', st_slice pr t rs re = Ok t' /\ text_of root t' /\ st_len t' = e - s /\
     forall m, st_to_string t = Ok m -> forall m', st_to_string t' = Ok m' <-> is_slice m s e m') /\
  (~ (s <= e /\ e <= st_len t) -> st_slice pr t rs re = Err Panic).
Proof.
  intros H%built_wfg Hco Ht Hs He s e. pose proof (text_of_in root H t Ht) as Hi. pose proof (st_slice_spec root H pr t rs re Hi Hs He) as E. simpl in E.
  fold s e in E. split.
  - intros [H1 H2]. apply N.leb_le in H1 as B1. apply N.leb_le in H2 as B2. rewrite B1, B2 in E. cbn in E.
    eexists. split; [exact E|].
    assert (text_of root (ST (st_node t) (TR (rstart (st_range t) + s) (rstart (st_range t) + e)))) as Ht' by exact (text_slice root pr t rs re _ Ht Hs He E).
    split; [done|]. split; [unfold st_len, range_len; simpl; lia|].
    intros m Hm m'. rewrite (st_to_string_spec root H Hco t Hi) in Hm. pose proof (text_of_in root H _ Ht') as Hi'. rewrite (st_to_string_spec root H Hco _ Hi').
    unfold text_str in *. simpl. apply str_slice_Ok in Hm as (p&q&E1&E2&E3).
    destruct Hi as (_&?&?&?). unfold st_len, range_len in *. rewrite blen_app in E3. rewrite is_slice_iff, E1, <- (str_slice_mid p m q) by lia.
    replace (rstart (st_range t) + s - c_offset (st_node t)) with (blen p + s) by lia.
    by replace (rstart (st_range t) + e - c_offset (st_node t)) with (blen p + e) by lia.
  - intros Hn. rewrite E. destruct (N.leb_spec s e); [|done]. destruct (N.leb_spec e (st_len t)); [|done]. exfalso. auto.
Qed.
Print Assumptions c30_slice.
(** the text of the first child of the example tree is "ab€" in two tokens; the
    slice 1..5 of it is "b€", 1..4 cuts the € *)
Example c30_nonvacuous :
  exists t t' t'', st_new (ex_c [0%nat]) = Ok t /\ st_slice Wrapping t (Some 1) None = Ok t' /\ st_slice Checked t (Some 1) (Some 4) = Ok t'' /\
    st_chunks t = Ok [[97]; [98; 8364]] /\ st_to_string t' = Ok [98; 8364] /\ st_to_string t'' = Err Panic /\
    st_slice Wrapping t (Some 4294967295) (Some 4294967295) = Err Panic /\
    text_of ex_g t /\ text_of ex_g t''.
Proof.
  assert (exists t, st_new (ex_c [0%nat]) = Ok t /\ text_of ex_g t) as (t&Ht&Htt).
  { eexists. split; [vm_compute; reflexivity|]. eapply (text_new ex_g [0%nat] (ex_c [0%nat])); [apply ex_c_at|..]; vm_compute; try reflexivity. apply elem_of_list_In. simpl. auto. }
  vm_compute in Ht. injection Ht as <-.
  do 3 eexists. split; [vm_compute; reflexivity|]. split; [vm_compute; reflexivity|]. split; [vm_compute; reflexivity|].
  split; [vm_compute; reflexivity|]. split; [vm_compute; reflexivity|]. split; [vm_compute; reflexivity|]. split; [vm_compute; reflexivity|].
  split; [exact Htt|]. eapply (text_slice ex_g Checked _ (Some 1) (Some 4)); [exact Htt|vm_compute; discriminate..|vm_compute; reflexivity].
Qed.

(** ** C31 *)
Theorem c31_eq_text root1 root2 t1 t2 m1 m2 :
  built root1 -> coherent root1 -> built root2 -> coherent root2 -> text_of root1 t1 -> text_of root2 t2 ->
  st_to_string t1 = Ok m1 -> st_to_string t2 = Ok m2 ->
  exists b, st_eqb t1 t2 = Ok b /\ (b = true <-> m1 = m2).
Proof.
  intros H1%built_wfg C1 H2%built_wfg C2 T1%(text_of_in root1 H1) T2%(text_of_in root2 H2).
  rewrite (st_to_string_spec root1 H1 C1 t1 T1), (st_to_string_spec root2 H2 C2 t2 T2). intros M1 M2. eexists.
  split; [by apply (st_eqb_spec root1 H1 C1 t1 T1 root2 H2 C2 t2 T2)|]. by rewrite bool_decide_eq_true.
Qed.
Print Assumptions c31_eq_text.

Theorem c31_eq_str root t m rhs :
  built root -> coherent root -> text_of root t -> st_to_string t = Ok m ->
  exists b, st_eq_str t rhs = Ok b /\ (b = true <-> m = rhs).
Proof.
  intros H%built_wfg Hco Ht%(text_of_in root H). rewrite (st_to_string_spec root H Hco t Ht). intros Hm. unfold st_eq_str.
  match goal with |- context [try_fold_chunks t rhs ?f] => destruct (st_fold_ok root H Hco t m f rhs Ht Hm) as (cs&->&Hc&_) end.
  rewrite sfold_eq_str, Hc. eexists. split; [done|]. by rewrite bool_decide_eq_true.
Qed.
Print Assumptions c31_eq_str.
(** bytes 0..5 of the whole text against the last node, which has the same
    text; bytes 1..6 have the same length and differ *)
Example c31_nonvacuous :
  exists t0 t4 t00 s,
    st_new (ex_c []) = Ok t0 /\ st_new (ex_c [4%nat]) = Ok t4 /\ st_slice Checked t0 None (Some 5) = Ok t00 /\
    st_slice Checked t0 (Some 1) (Some 6) = Ok s /\
    st_to_string t00 = Ok [97; 98; 8364] /\ st_eqb t00 t4 = Ok true /\ st_eqb s t4 = Ok false /\
    st_eq_str t00 [97; 98; 8364] = Ok true /\ st_eq_str t00 [97; 98] = Ok false.
Proof.
  do 4 eexists. split; [vm_compute; reflexivity|]. split; [vm_compute; reflexivity|]. split; [vm_compute; reflexivity|].
  split; [vm_compute; reflexivity|]. vm_compute. split_and!; reflexivity.
Qed.

(** ** C32 *)
Theorem c32_find_char root t m c :
  built root -> coherent root -> text_of root t -> st_to_string t = Ok m ->
  exists o, st_find_char t c = Ok o /\
  match o with
  | Some n => exists l r, m = l ++ c :: r /\ blen l = n /\ c ∉ l
  | None => c ∉ m
  end.
Proof.
  intros H%built_wfg Hco Ht%(text_of_in root H). rewrite (st_to_string_spec root H Hco t Ht). intros Hm. unfold st_find_char.
  match goal with |- context [try_fold_chunks t 0 ?f] => destruct (st_fold_ok root H Hco t m f 0 Ht Hm) as (cs&->&Hc&Hf) end.
  rewrite sfold_find by (rewrite Hc; lia). rewrite Hc. cbn [mbind res_bind].
  destruct (str_find m c) as [n|] eqn:E; (eexists; split; [done|]); [|by apply str_find_None].
  rewrite N.add_0_l. by apply str_find_Some.
Qed.
Print Assumptions c32_find_char.

Theorem c32_contains_char root t m c :
  built root -> coherent root -> text_of root t -> st_to_string t = Ok m ->
  exists b, st_contains_char t c = Ok b /\ (b = true <-> c ∈ m).
Proof.
  intros H%built_wfg Hco Ht%(text_of_in root H). rewrite (st_to_string_spec root H Hco t Ht). intros Hm. unfold st_contains_char.
  match goal with |- context [try_fold_chunks t _ ?f] => destruct (st_fold_ok root H Hco t m f Datatypes.tt Ht Hm) as (cs&->&Hc&_) end.
  rewrite sfold_contains, Hc. eexists. split; [done|]. rewrite <- str_contains_iff. by destruct (str_contains m c).
Qed.
Print Assumptions c32_contains_char.

(** the char at a byte offset: none at or past the end, and a panic exactly when
    the offset is inside a char *)
Theorem c32_char_at root t m o :
  built root -> coherent root -> text_of root t -> st_to_string t = Ok m ->
  match st_char_at t o with
  | Ok (Some c) => exists l r, m = l ++ c :: r /\ blen l = o
  | Ok None => blen m <= o
  | Err e => e = Panic /\ o < blen m /\ forall l r, m = l ++ r -> blen l <> o
  end.
Proof.
  intros H%built_wfg Hco Ht%(text_of_in root H). rewrite (st_to_string_spec root H Hco t Ht). intros Hm. unfold st_char_at.
  match goal with |- context [try_fold_chunks t 0 ?f] => destruct (st_fold_ok root H Hco t m f 0 Ht Hm) as (cs&->&Hc&Hf) end.
  rewrite sfold_char_at by (rewrite ?Hc; lia). rewrite Hc, N.sub_0_r. unfold char_from.
  destruct (N.leb_spec (blen m) o); [done|]. destruct (str_from m o) as [r|e] eqn:E.
  - apply str_from_Ok in E as (l&->&<-). destruct r as [|c r]; [rewrite app_nil_r in *; lia|]. cbn. eauto.
  - cbn. split; [by apply str_from_err in E|]. split; [done|]. intros l r -> <-. rewrite (proj2 (str_from_Ok (l ++ r) (blen l) r)) in E by eauto. done.
Qed.
Print Assumptions c32_char_at.
(** in "ab€ ab€" (the empty nodes between do not count) *)
Example c32_nonvacuous :
  exists t, st_new (ex_c []) = Ok t /\ st_to_string t = Ok [97; 98; 8364; 32; 97; 98; 8364] /\
    st_find_char t 32 = Ok (Some 5) /\ st_find_char t 98 = Ok (Some 1) /\ st_find_char t 99 = Ok None /\ st_contains_char t 8364 = Ok true /\
    st_char_at t 2 = Ok (Some 8364) /\ st_char_at t 3 = Err Panic /\ st_char_at t 11 = Ok None.
Proof.
  eexists. split; [vm_compute; reflexivity|]. vm_compute. split_and!; reflexivity.
Qed.
