(** * Theorems: what is stored in the node objects (C83)

    [hn h] maps addresses to live [NodeData] objects; [kids_of h x] are the live objects whose
    parent pointer is [x]; [holders hs x] counts the client's variables that hold [x].
    [w32] is 2^32. *)
From Verif Require Import Index32 HeapClient Moves PropertiesHeap.
Local Open Scope nat_scope.

(** ** C83 *)
(** the parent pointer is live, and the green child of the parent at the stored index is the
    green element of the object, the very same allocation; the stored offset of an immutable
    node is that of the parent plus the relative offset of that child *)
Theorem c83_child env prog st os hs h x n q : henv_ok env -> s_run prog s_init = SOk (st, os) -> client env prog = (Ok (hs, os), h) ->
  hn h !! x = Some n -> n_par n = Some q ->
  exists m rel, hn h !! q = Some m /\ n_mut m = n_mut n /\ gchildren (n_grn m) !! n_idx n = Some (rel, n_grn n) /\
    (n_mut n = false -> n_off n = (n_off m + rel)%N).
Proof.
  intros Henv E Hc Hx Hq. destruct (reach env Henv _ _ _ E) as (hs0&h0&Hc0&Hs&_). rewrite Hc in Hc0. injection Hc0 as <- <-.
  destruct Hs as (zs&lk&Hsim). pose proof (sm_sim _ _ _ _ _ _ Hsim) as [(K&R&Hsh&_) _].
  destruct (sh_child _ _ Hsh x (core_of n) q) as (cq&rel&H1&H2&H3&H4); [by rewrite P_pc, Hx|done|].
  rewrite P_pc in H1. destruct (hn h !! q) as [m|] eqn:Em; [|discriminate]. injection H1 as <-.
  exists m, rel. split; [reflexivity|]. split; [exact H2|]. split; [exact H3|exact H4].
Qed.
Print Assumptions c83_child.
Theorem c83_root env prog st os hs h x n : henv_ok env -> s_run prog s_init = SOk (st, os) -> client env prog = (Ok (hs, os), h) ->
  hn h !! x = Some n -> n_par n = None -> n_mut n = false -> n_off n = 0%N.
Proof.
  intros Henv E Hc Hx Hq Hm. destruct (reach env Henv _ _ _ E) as (hs0&h0&Hc0&Hs&_). rewrite Hc in Hc0. injection Hc0 as <- <-.
  destruct Hs as (zs&lk&Hsim). pose proof (sm_sim _ _ _ _ _ _ Hsim) as [(K&R&Hsh&_) _].
  apply (sh_root _ _ Hsh x (core_of n)); [by rewrite P_pc, Hx|done|done].
Qed.
Print Assumptions c83_root.
(** two objects of a mutable tree never have the same parent and the same index *)
Theorem c83_index_unique env prog st os hs h x y n m q : henv_ok env -> s_run prog s_init = SOk (st, os) -> client env prog = (Ok (hs, os), h) ->
  hn h !! x = Some n -> hn h !! y = Some m -> n_par n = Some q -> n_par m = Some q -> n_mut n = true -> n_idx n = n_idx m -> x = y.
Proof.
  intros Henv E Hc Hx Hy Hn Hm Hmut Hi. destruct (c83_child _ _ _ _ _ _ _ _ _ Henv E Hc Hx Hn) as (nq&_&Hq&Hmq&_).
  destruct (c42_sorted _ _ _ _ _ _ q nq Henv E Hc Hq ltac:(congruence)) as (l&Hl&_&_&Hs).
  assert (Hlx : x ∈ l) by (rewrite Hl; apply elem_of_kids_of; eauto). assert (Hly : y ∈ l) by (rewrite Hl; apply elem_of_kids_of; eauto).
  apply elem_of_list_lookup in Hlx as [i Hlx]. apply elem_of_list_lookup in Hly as [j Hly].
  set (f := fun y => default 0 (n_idx <$> hn h !! y)) in Hs.
  assert (Hfx : map f l !! i = Some (n_idx n)) by (rewrite list_lookup_fmap, Hlx; simpl; unfold f; by rewrite Hx).
  assert (Hfy : map f l !! j = Some (n_idx n)) by (rewrite list_lookup_fmap, Hly; simpl; unfold f; by rewrite Hy, Hi).
  assert (Hlt : forall (l : list nat) i j a b, StronglySorted lt l -> l !! i = Some a -> l !! j = Some b -> i < j -> a < b).
  { clear. intros l i j a b Hs. revert i j. induction Hs as [|z l Hs IH Hf]; intros i j Hi Hj Hij; [discriminate|].
    destruct j as [|j]; [lia|]. destruct i as [|i]; simpl in *.
    - injection Hi as <-. rewrite Forall_forall in Hf. apply Hf. by eapply elem_of_list_lookup_2.
    - apply (IH i j); [done|done|lia]. }
  destruct (Nat.lt_trichotomy i j) as [H|[->|H]].
  - pose proof (Hlt _ _ _ _ _ Hs Hfx Hfy H). lia.
  - congruence.
  - pose proof (Hlt _ _ _ _ _ Hs Hfy Hfx H). lia.
Qed.
Print Assumptions c83_index_unique.
(** the index fits into 32 bits as long as no node has more than 2^32 children, and the reference
    count as long as there are fewer than 2^32 variables and objects together *)
Theorem c83_fits env prog st os hs h x n : henv_ok env -> s_run prog s_init = SOk (st, os) -> client env prog = (Ok (hs, os), h) ->
  hn h !! x = Some n ->
  (forall q m, n_par n = Some q -> hn h !! q = Some m -> length (gchildren (n_grn m)) <= w32 -> n_idx n < w32) /\
  (s_leaked st = [] -> length (h_handles hs) + size (hn h) < w32 -> n_rc n < w32).
Proof.
  intros Henv E Hc Hx. split.
  - intros q m Hq Hm Hl. destruct (c83_child _ _ _ _ _ _ _ _ _ Henv E Hc Hx Hq) as (m'&rel&Hm'&_&Hi&_).
    rewrite Hm in Hm'. injection Hm' as <-. apply lookup_lt_Some in Hi. lia.
  - intros Hlk Hl. destruct (reach env Henv _ _ _ E) as (hs0&h0&Hc0&Hs&_). rewrite Hc in Hc0. injection Hc0 as <- <-.
    destruct (sim_heap_ok _ _ _ Hs) as (_&_&Hr). destruct (Hr Hlk x n Hx) as [-> _].
    assert (H1 : holders hs x <= length (h_handles hs)) by (unfold holders; apply filter_length).
    assert (H2 : length (kids_of h x) <= size (hn h)).
    { unfold kids_of. etransitivity; [apply filter_length|]. rewrite <-size_dom. reflexivity. }
    lia.
Qed.
Print Assumptions c83_fits.

(** after an edit: the objects of the root and its four children, with the stored fields *)
Example c83_nonvacuous : let prog := demo ++ [ODetach 1; ONav NFirstChild 0] in
  exists st os, s_run prog s_init = SOk (st, os) /\ s_leaked st = [] /\
  match client bump_env prog with
  | (Ok (hs, _), h) => match h_handles hs !! 2, h_handles hs !! 9, h_handles hs !! 8 with
      | Some (Some x), Some (Some y), Some (Some z) => x = y /\ (n_idx <$> hn h !! x) = Some 0 /\ is_Some (hn h !! x ≫= n_par) /\
          (n_mut <$> hn h !! z) = Some false /\ is_Some (hn h !! z ≫= n_par)
      | _, _, _ => False end
  | _ => False
  end.
Proof. eexists _, _. split; [by vm_compute|]. split; [by vm_compute|]. vm_compute. eauto 10. Qed.
