(** * Property theorems about green trees and ranges in release builds *)
From Verif Require Import WrapGreenFacts.

(** a text of 3000000000 bytes *)
(** example: [GreenToken::new] (green/token.rs:112-116) *)
Definition ex_big : str := replicate (N.to_nat 3000000000) 97%N.
Lemma ex_big_len : blen ex_big = 3000000000%N.
Proof. unfold ex_big. rewrite blen_replicate, N2Nat.id. reflexivity. Qed.
Opaque ex_big.
(** a node with the big token twice, and a small one after it *)
(** example: [GreenNode::new] (green/node.rs:203-232) *)
Definition ex_over : green :=
  GNode 9 5 (m32 6000000003) [(0%N, GTok 1 0 ex_big); (3000000000%N, GTok 1 0 ex_big); (m32 6000000000, GTok 2 7 [97; 98; 99]%N)].
Lemma ex_over_built : green_new Wrapping 9 5 [GTok 1 0 ex_big; GTok 1 0 ex_big; GTok 2 7 [97; 98; 99]%N] = Ok ex_over.
Proof.
  unfold green_new. cbn [assign_offsets green_text_len]. rewrite !ex_big_len. reflexivity.
Qed.
Lemma ex_over_rel : built_rel ex_over.
Proof. eapply br_node; [|exact ex_over_built]. repeat apply Forall_cons_2; try apply Forall_nil_2; apply br_token. Qed.

(** ** C87 *)
(** stored lengths and offsets are the true ones modulo 2^32 *)
Theorem c87_lengths g : built_rel g ->
  green_text_len g =
    if gis_node g then Ok (m32 (blen (green_display g)))
    else if (blen (green_display g) <=? 4294967295)%N then Ok (blen (green_display g)) else Err Panic.
Proof. intros H%built_rel_wfw. rewrite green_display_text. by apply wfw_text_len. Qed.
Print Assumptions c87_lengths.
Theorem c87_offsets g i c : built_rel g -> gchildren g !! i = Some c ->
  c.1 = m32 (blen (concat (map green_display (take i (kids g))))).
Proof.
  intros H%built_rel_wfw Hc. rewrite (map_ext green_display gtext); [|apply green_display_text].
  by eapply wfw_lookup.
Qed.
Print Assumptions c87_offsets.
(** construction fails exactly when a token among the children is too long *)
Theorem c87_new a k els : Forall built_rel els ->
  (toks_fit (map erase els) /\ exists g, green_new Wrapping a k els = Ok g /\ built_rel g /\ gkind g = k /\ kids g = els) \/
  (~ toks_fit (map erase els) /\ green_new Wrapping a k els = Err Panic).
Proof.
  intros H. assert (HF : Forall wfw els) by (eapply Forall_impl; [exact H|apply built_rel_wfw]).
  destruct (green_new_rel a k els HF) as [[Ht E]|?]; [left|by right]. split; [done|]. eexists. split; [exact E|].
  split; [by eapply br_node|]. split; [done|]. unfold kids. simpl. by rewrite moffsets_snd.
Qed.
Print Assumptions c87_new.
(** equality and hashing still are those of the trees *)
Theorem c87_equality g1 g2 : built_rel g1 -> built_rel g2 ->
  (green_eqb g1 g2 = true <-> erase g1 = erase g2) /\ (erase g1 = erase g2 -> green_hash_feed g1 = green_hash_feed g2).
Proof.
  intros H1%built_rel_wfw H2%built_rel_wfw. split; [|by apply green_hash_feed_rel].
  split; [apply green_eqb_erase|by apply erase_green_eqb_rel].
Qed.
Print Assumptions c87_equality.
(** builders, with any cache left by earlier builders, make the specified tree, or panic exactly if it is
    malformed or contains too long a token *)
Theorem c87_builder env c ops : cenv_ok env -> cache_reachable env Wrapping c ->
  erase <$> b_build env Wrapping c ops = spec_build_rel ops /\
  (forall g, b_build env Wrapping c ops = Ok g -> built_rel g).
Proof. apply b_build_rel. Qed.
Print Assumptions c87_builder.
(** at every position of the tree there is an element with that subtree; its offset (also computed as in mutable trees)
    and its range are the true ones modulo 2^32, and asking for a range that then ends before it starts panics *)
Theorem c87_ranges g p : built_rel g ->
  match tsub (erase g) p with
  | Some t =>
      let a := blen (tbefore (erase g) p) in let b := (a + blen (ttext t))%N in
      exists d, r_descend (CRoot g) p = Ok (Some d) /\ erase (c_green d) = t /\
        c_offset d = m32 a /\ r_offset_mut d 0 = Ok (m32 a) /\
        (toks_fit [t] -> r_text_range d = if (m32 a <=? m32 b)%N then Ok (TR (m32 a) (m32 b)) else Err Panic) /\
        (~ toks_fit [t] -> r_text_range d = Err Panic)
  | None => r_descend (CRoot g) p = Ok None
  end.
Proof.
  intros H%built_rel_wfw. pose proof (r_at g p H) as R. destruct (tsub (erase g) p) as [t|] eqn:Ht; [|done].
  destruct R as (d&H1&H2&H3&H4). exists d. split; [done|].
  assert (He : erase (c_green d) = t) by (rewrite erase_gsub, H2 in Ht; by injection Ht). split; [done|].
  split; [done|]. split; [by rewrite H4, H3|].
  pose proof (wfw_gsub _ _ _ H H2) as Hw. unfold r_text_range. split; intros Hf.
  - rewrite wfw_text_len_fits; [|done|].
    + unfold gtext. rewrite He, H3. simpl. rewrite add32_rel. simpl. rewrite m32_add, m32_add_r.
      unfold rassert. by destruct (_ <=? _)%N.
    + unfold gtext. rewrite He. by inversion Hf.
  - rewrite wfw_text_len by done. destruct (c_green d) as [a k tl cs|a k s] eqn:E.
    + destruct Hf. constructor; [|constructor]. subst t. done.
    + simpl. destruct (N.leb_spec (blen (gtext (GTok a k s))) 4294967295) as [Hl|Hl]; [|done].
      destruct Hf. constructor; [|constructor]. intros _. subst t. done.
Qed.
Print Assumptions c87_ranges.
(** what ends within the first 2^32-1 bytes has its true range, however long the tree is *)
Theorem c87_below g p t : built_rel g -> tsub (erase g) p = Some t ->
  (blen (tbefore (erase g) p) + blen (ttext t) <= 4294967295)%N ->
  exists d a b, r_descend (CRoot g) p = Ok (Some d) /\ erase (c_green d) = t /\
    r_text_range d = Ok (TR a b) /\ trange (erase g) p = Some (a, b).
Proof.
  intros H Ht Hb. pose proof (c87_ranges g p H) as R. rewrite Ht in R. destruct R as (d&H1&H2&_&_&H3&_).
  exists d, (blen (tbefore (erase g) p)), (blen (tbefore (erase g) p) + blen (ttext t))%N.
  split; [done|]. split; [done|]. split; [|unfold trange; by rewrite Ht].
  rewrite H3 by (constructor; [intros _; lia|constructor]).
  rewrite !m32_small by lia. destruct (N.leb_spec (blen (tbefore (erase g) p)) (blen (tbefore (erase g) p) + blen (ttext t))); [done|lia].
Qed.
Print Assumptions c87_below.
(** it does not hold beyond: the range of a token may panic, and may lie inside the range of another token *)
Theorem c87_beyond : exists g d1 d2 d0, built_rel g /\
  r_descend (CRoot g) [0] = Ok (Some d0) /\ r_descend (CRoot g) [1] = Ok (Some d1) /\ r_descend (CRoot g) [2] = Ok (Some d2) /\
  r_text_range d1 = Err Panic /\
  r_text_range d0 = Ok (TR 0 3000000000) /\ r_text_range d2 = Ok (TR 1705032704 1705032707).
Proof.
  exists ex_over. eexists _, _, _. split; [exact ex_over_rel|].
  split; [reflexivity|]. split; [reflexivity|]. split; [reflexivity|].
  unfold r_text_range. cbn [c_green green_text_len snd]. rewrite ex_big_len. repeat split; reflexivity.
Qed.
Print Assumptions c87_beyond.
Example c87_nonvacuous :
  built_rel ex_over /\ green_text_len ex_over = Ok 1705032707%N /\ blen (green_display ex_over) = 6000000003%N /\
  ~ toks_fit [Token 0 (ex_big ++ ex_big)] /\
  (exists ops t, spec_build_rel ops = Ok t /\ blen (ttext t) = 6000000000%N /\ spec_build ops = Err Panic) /\
  (exists p t, tsub (erase ex_over) p = Some t /\ (blen (tbefore (erase ex_over) p) + blen (ttext t) = 3000000000)%N).
Proof.
  split; [exact ex_over_rel|]. split; [reflexivity|].
  split. { rewrite green_display_text. unfold gtext. simpl. rewrite !blen_app, ex_big_len. reflexivity. }
  split. { intros H. inversion H as [|? ? H1 _]. specialize (H1 eq_refl). simpl in H1. rewrite blen_app, ex_big_len in H1. by vm_compute in H1. }
  split.
  - exists [BStartNode 5; BToken 0 ex_big; BToken 0 ex_big; BFinishNode], (Node 5 [Token 0 ex_big; Token 0 ex_big]).
    split; [|split].
    + unfold spec_build_rel. simpl. rewrite decide_True; [done|].
      repeat constructor; intros _; simpl; by rewrite ex_big_len.
    + simpl. rewrite app_nil_r, blen_app, ex_big_len. reflexivity.
    + unfold spec_build. simpl. unfold sbl_op. simpl. rewrite app_nil_r, blen_app, ex_big_len. reflexivity.
  - exists [0], (Token 0 ex_big). split; [reflexivity|]. simpl. rewrite ex_big_len. reflexivity.
Qed.
