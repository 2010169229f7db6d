(** * Properties of the tree builder and the node cache (C01, C06-C12) *)
From Verif Require Import BuilderFacts.

(** A concrete environment for the examples: a polynomial hash, first-match
    probing, growth at even sizes, bump allocation. *)
Definition ex_env : cenv := {|
  hinit := 7; hkind h k := (h * 31 + k + 1)%N;
  htext h s := fold_left (fun h c => (h * 31 + c)%N) s (h * 31)%N;
  hu64 h x := (h * 37 + x)%N; hfin h := h;
  probe _ tab h eq := snd <$> findb (fun e => (e.1 =? h)%N && eq e.2) tab;
  grows _ tab := Nat.even (length tab);
  alloc _ used := S (max_list used);
|}.
Lemma ex_env_ok : cenv_ok ex_env.
Proof.
  split.
  - intros t tab h eq. simpl. destruct (findb _ tab) as [[h' e]|] eqn:E; simpl.
    + apply findb_Some in E as [Hin He]. apply andb_true_iff in He as [_ He]. split; [by exists h'|done].
    + intros e He. pose proof (findb_None _ _ E _ He) as H. simpl in H. by rewrite N.eqb_refl in H.
  - intros t used Hin. simpl in Hin. apply max_list_elem_of_le in Hin. lia.
Qed.
(** "a" "b" in a node, twice; cached the second time *)
Definition ex_ops : list bop :=
  [BStartNode 1; BStartNode 2; BToken 3 [97]; BToken 4 [98; 8364]; BFinishNode;
   BStartNode 2; BToken 3 [97]; BToken 4 [98; 8364]; BFinishNode; BFinishNode]%N.
(** example *)
Definition ex_tree : tree :=
  Node 1 [Node 2 [Token 3 [97]; Token 4 [98; 8364]]; Node 2 [Token 3 [97]; Token 4 [98; 8364]]]%N.
Example ex_cache_reachable : cache_reachable ex_env Checked cache_empty.
Proof. apply b_later_refl. Qed.

(** ** C01 for trees made by a builder *)
Theorem c01_builder_text_len_exact env c ops g p x :
  cenv_ok env -> cache_reachable env Checked c -> b_build env Checked c ops = Ok g ->
  gsub g p = Some x ->
  green_text_len x = Ok (blen (green_display x)) /\ (blen (green_display x) <= u32_max)%N.
Proof.
  intros Henv Hc Hb Hs. destruct (b_build_wf _ _ _ _ _ Henv Hc Hb) as (Hw&_&_).
  assert (wfg x) by (eapply wfg_gsub; [by apply Hw|done]).
  rewrite green_display_text. split; [by apply wfg_text_len|by apply wfg_bound].
Qed.
Print Assumptions c01_builder_text_len_exact.
Example c01_builder_nonvacuous : exists g, b_build ex_env Checked cache_empty ex_ops = Ok g /\ green_text_len g = Ok 10%N.
Proof. eexists. split; [vm_compute; reflexivity|]. vm_compute. reflexivity. Qed.

(** ** C06: in both arithmetic profiles, with any cache, hash function, probing and allocator *)
Theorem c06_lossless env pr c ops g :
  cenv_ok env -> cache_reachable env pr c -> b_build env pr c ops = Ok g ->
  green_display g = ops_text ops.
Proof.
  intros Henv Hc Hg. unfold b_build in Hg. apply res_bind_ok in Hg as (b&Hb&Hf).
  pose proof (b_run_spec env pr (builder_new c) sb_new ops Henv (b_reachable_inv _ _ _ Henv Hc) (brel_new c)) as H.
  rewrite Hb in H. destruct H as (s&Hs&HR&_). apply sb_run_text in Hs. simpl in Hs.
  pose proof (b_finish_erase _ _ HR) as He. rewrite Hf in He. simpl in He.
  rewrite green_display_text. unfold gtext.
  destruct (sb_pending s) as [|[k cs|] [|]]; try done. injection He as ->.
  rewrite <- Hs. unfold ctext. simpl. by rewrite app_nil_r.
Qed.
Print Assumptions c06_lossless.
Example c06_nonvacuous : ops_text ex_ops = [97; 98; 8364; 97; 98; 8364]%N.
Proof. done. Qed.

(** ** C07 *)
Theorem c07_replay env c t :
  cenv_ok env -> cache_reachable env Checked c -> is_node t = true ->
  if (blen (ttext t) <=? u32_max)%N
  then exists g, b_build env Checked c (tree_ops t) = Ok g /\ erase g = t
  else b_build env Checked c (tree_ops t) = Err Panic.
Proof.
  intros Henv Hc Hn. pose proof (b_build_spec env c (tree_ops t) Henv Hc) as H. unfold spec_build in H.
  destruct (N.leb_spec (blen (ttext t)) u32_max) as [Hb|Hb].
  - rewrite sbl_run_tree in H by done. unfold sb_pending in H. simpl in H. destruct t as [k cs|]; [|done].
    destruct (b_build env Checked c (tree_ops (Node k cs))) as [g|]; [|done]. injection H as H. eauto.
  - rewrite sbl_run_tree_overflow in H by done.
    destruct (b_build env Checked c (tree_ops t)) as [g|[]]; done.
Qed.
Print Assumptions c07_replay.
Example c07_nonvacuous : tree_ops ex_tree = ex_ops /\ is_node ex_tree = true /\ (blen (ttext ex_tree) <=? u32_max)%N = true.
Proof. done. Qed.

(** ** C08: [start_node_at] with the checkpoint taken after [ops1] is [start_node] at that moment *)
Theorem c08_checkpoint env c ops1 b ops2 ops3 k :
  cenv_ok env -> cache_reachable env Checked c ->
  b_run env Checked (builder_new c) ops1 = Ok b -> balanced (b_checkpoint b) 0 ops2 ->
  erase <$> b_build env Checked c (ops1 ++ ops2 ++ BStartNodeAt (b_checkpoint b) k :: ops3) =
  erase <$> b_build env Checked c (ops1 ++ BStartNode k :: ops2 ++ ops3).
Proof.
  intros Henv Hc Hb Hbal. rewrite !b_build_spec by done. unfold spec_build.
  pose proof (builder_refines env c ops1 Henv Hc) as H. rewrite !sbl_run_app.
  destruct (sbl_run sb_new ops1) as [s|]; [|done]. destruct H as (b'&Hb'&HR&_).
  assert (b' = b) as -> by congruence.
  assert (Hcp : b_checkpoint b = length (sb_pending s)).
  { unfold b_checkpoint. by rewrite (brel_length _ _ HR), sb_pending_length. }
  rewrite Hcp in *. pose proof (sbl_checkpoint s k ops2 Hbal) as E.
  change (BStartNodeAt (length (sb_pending s)) k :: ops3) with ([BStartNodeAt (length (sb_pending s)) k] ++ ops3).
  change (BStartNode k :: ops2 ++ ops3) with ((BStartNode k :: ops2) ++ ops3).
  rewrite app_assoc, (sbl_run_app s (_ ++ _)), E, (sbl_run_app s (_ :: _)). done.
Qed.
Print Assumptions c08_checkpoint.
Example c08_nonvacuous :
  let ops2 := [BToken 3 [97]; BStartNode 5; BToken 3 [97]; BFinishNode; BToken 4 [98]]%N in
  balanced 1 0 ops2 /\
  (exists b, b_run ex_env Checked (builder_new cache_empty) [BStartNode 1; BToken 9 [32]]%N = Ok b /\ b_checkpoint b = 1) /\
  erase <$> b_build ex_env Checked cache_empty
     ([BStartNode 1; BToken 9 [32]] ++ ops2 ++ [BStartNodeAt 1 2; BToken 9 [32]; BFinishNode; BFinishNode])%N =
  Ok (Node 1 [Token 9 [32]; Node 2 [Token 3 [97]; Node 5 [Token 3 [97]]; Token 4 [98]; Token 9 [32]]])%N.
Proof. split; [simpl; auto|]. split; [eexists; split; [vm_compute; reflexivity|vm_compute; reflexivity]|vm_compute; reflexivity]. Qed.

(** ** C09 *)
(** the open nodes own disjoint consecutive runs: first-child indices never
    decrease towards the innermost open node and never exceed the pending elements *)
Theorem c09_runs_ordered env pr b :
  cenv_ok env -> b_reachable env pr b -> runs_ordered (length (children b)) (parents b).
Proof. exact (runs_ordered_reachable env pr b). Qed.
Print Assumptions c09_runs_ordered.
(** every call, and [finish], behaves as the stack of half-built nodes says, including panics *)
Theorem c09_refines_spec env c ops :
  cenv_ok env -> cache_reachable env Checked c ->
  erase <$> b_build env Checked c ops = spec_build ops.
Proof. exact (b_build_spec env c ops). Qed.
Print Assumptions c09_refines_spec.
(** [finish_node] panics exactly when no node is open (or the text does not fit in u32) *)
Theorem c09_finish_node_panics env c ops b :
  cenv_ok env -> cache_reachable env Checked c -> b_run env Checked (builder_new c) ops = Ok b ->
  match b_op env Checked b BFinishNode with
  | Ok _ => open_nodes 0 ops <> 0
  | Err e => e = Panic /\ (open_nodes 0 ops = 0 \/ (u32_max < blen (ops_text ops))%N)
  end.
Proof.
  intros Henv Hc Hb. pose proof (builder_refines env c ops Henv Hc) as H.
  destruct (sbl_run sb_new ops) as [s|] eqn:Es; [|congruence].
  destruct H as (b'&Hb'&HR&Hi). assert (b' = b) as -> by congruence.
  apply sbl_sb_run in Es. pose proof (open_nodes_spec _ _ _ Es) as Ho. simpl in Ho.
  pose proof (sb_run_text _ _ _ Es) as Ht. simpl in Ht.
  pose proof (b_op_step env Checked b s BFinishNode Henv Hi HR) as Hst.
  destruct (b_op env Checked b BFinishNode) as [b1|e].
  - destruct Hst as (s1&Hs1&_). simpl in Hs1. destruct (outer s); [done|]. simpl in Ho. lia.
  - destruct Hst as [-> Hst]. split; [done|]. simpl in Hst.
    destruct Hst as [Hst|Hst].
    + left. destruct (outer s) as [|[? ?] ?]; [by rewrite <- Ho|done].
    + right. rewrite <- Ht. unfold sb_pending. rewrite ctext_app, blen_app.
      apply N.leb_gt in Hst. change (concat (map ttext (current s))) with (ctext (current s)) in Hst. lia.
Qed.
Print Assumptions c09_finish_node_panics.
(** [start_node_at] panics exactly when the checkpoint is beyond the pending
    elements or before those of the innermost open node *)
Theorem c09_start_node_at_panics env pr b cp k :
  b_op env pr b (BStartNodeAt cp k) = Err Panic <->
  length (b_pending b) < cp \/ exists k' n ps, parents b = (k', n) :: ps /\ cp < n.
Proof.
  simpl. unfold b_start_node_at, b_pending. rewrite length_map.
  destruct (Nat.leb_spec cp (length (children b))) as [H|H]; simpl.
  - destruct (parents b) as [|[k' n] ps]; simpl.
    + split; [done|]. intros [?|(?&?&?&[=]&_)]. lia.
    + destruct (Nat.leb_spec n cp); simpl.
      * split; [done|]. intros [?|(?&?&?&[= <- <- <-]&?)]; lia.
      * split; [|done]. intros _. right. eauto.
  - split; [|done]. intros _. by left.
Qed.
Print Assumptions c09_start_node_at_panics.
(** [finish] panics exactly when the pending result is not a single node *)
Theorem c09_finish_panics b :
  b_finish b = Err Panic <-> ~ exists k cs, b_pending b = [Node k cs].
Proof.
  unfold b_finish, b_pending. destruct (children b) as [|[h g] [|x l]]; simpl.
  - split; [by intros _ (?&?&[=])|done].
  - destruct g as [a k tl cs|a k s]; simpl.
    + split; [done|]. intros H. exfalso. eauto.
    + split; [by intros _ (?&?&[=])|done].
  - split; [by intros _ (?&?&[=])|done].
Qed.
Print Assumptions c09_finish_panics.
Example c09_nonvacuous :
  spec_build (ex_ops ++ [BFinishNode]) = Err Panic /\
  spec_build [BToken 1 [97]]%N = Err Panic /\
  spec_build [BStartNode 1; BToken 1 [97]; BStartNodeAt 1 2; BToken 1 [98]; BFinishNode; BFinishNode]%N =
    Ok (Node 1 [Token 1 [97]; Node 2 [Token 1 [98]]])%N.
Proof. vm_compute. done. Qed.

(** ** C10 is false: [finish] succeeds with an open node, whose kind and position are lost *)
Theorem c10_finish_unclosed_refuted :
  exists ops g, b_build ex_env Checked cache_empty ops = Ok g /\ open_nodes 0 ops = 1.
Proof.
  exists [BStartNode 1; BStartNode 2; BToken 3 [97]; BFinishNode]%N. eexists.
  split; [vm_compute; reflexivity|]. reflexivity.
Qed.
Print Assumptions c10_finish_unclosed_refuted.
(** What does hold is [c09_finish_panics]: success depends on the pending elements
    only; and [c06_lossless]: no text is lost. *)

(** ** C11: two caches with arbitrary pasts, hash functions, probing, growth, allocation *)
Theorem c11_cache_transparent env1 c1 env2 c2 ops :
  cenv_ok env1 -> cache_reachable env1 Checked c1 ->
  cenv_ok env2 -> cache_reachable env2 Checked c2 ->
  erase <$> b_build env1 Checked c1 ops = erase <$> b_build env2 Checked c2 ops.
Proof. intros. by rewrite !b_build_spec. Qed.
Print Assumptions c11_cache_transparent.
Theorem c11_cache_eq env1 c1 env2 c2 ops g1 g2 :
  cenv_ok env1 -> cache_reachable env1 Checked c1 ->
  cenv_ok env2 -> cache_reachable env2 Checked c2 ->
  b_build env1 Checked c1 ops = Ok g1 -> b_build env2 Checked c2 ops = Ok g2 -> green_eqb g1 g2 = true.
Proof.
  intros H1 H2 H3 H4 Hg1 Hg2. apply erase_green_eqb.
  - by apply (b_build_wf _ _ _ _ _ H1 H2 Hg1).
  - by apply (b_build_wf _ _ _ _ _ H3 H4 Hg2).
  - pose proof (c11_cache_transparent _ _ _ _ ops H1 H2 H3 H4) as E. rewrite Hg1, Hg2 in E. by injection E.
Qed.
Print Assumptions c11_cache_eq.
(** a degenerate hash function and a different allocator *)
Definition ex_env2 : cenv := {|
  hinit := 1; hkind _ _ := 1; htext _ _ := 1; hu64 _ _ := 1; hfin h := h;
  probe := probe ex_env; grows _ _ := true; alloc _ used := (1000 + max_list used)%nat |}%N.
Example c11_nonvacuous :
  cenv_ok ex_env2 /\
  (exists b, b_run ex_env2 Checked (builder_new cache_empty) ex_ops = Ok b /\
             cache_reachable ex_env2 Checked (bcache b)) /\
  erase <$> b_build ex_env2 Checked cache_empty ex_ops = Ok ex_tree.
Proof.
  split; [|split].
  - split; [apply ex_env_ok|]. intros t used Hin. simpl in Hin. apply max_list_elem_of_le in Hin. lia.
  - destruct (b_run ex_env2 Checked (builder_new cache_empty) ex_ops) as [b|] eqn:E; [|vm_compute in E; done].
    exists b. split; [done|]. unfold cache_reachable, b_reachable.
    enough (H : forall ops b0, b_run ex_env2 Checked b0 ops = Ok b -> b_later ex_env2 Checked b0 (builder_new (bcache b))).
    { by eapply H. }
    induction ops as [|o ops IH]; intros b0; simpl.
    + intros [= <-]. apply b_later_reuse, b_later_refl.
    + intros H. apply res_bind_ok in H as (b1&H1&H2). eapply b_later_op; [exact H1|]. by apply IH.
  - vm_compute. done.
Qed.

(** ** C12 *)
(** [children b] are (hash, element with its address); equality of elements
    includes the address: it is the same allocation *)
Theorem c12_token_dedup env pr b k s b1 b2 b3 :
  cenv_ok env -> b_reachable env pr b ->
  b_op env pr b (BToken k s) = Ok b1 -> b_later env pr b1 b2 -> b_op env pr b2 (BToken k s) = Ok b3 ->
  last (children b3) = last (children b1).
Proof. exact (token_dedup env pr b k s b1 b2 b3). Qed.
Print Assumptions c12_token_dedup.
Theorem c12_node_dedup env pr b k n ps b1 b2 n2 ps2 b3 :
  cenv_ok env -> b_reachable env pr b ->
  parents b = (k, n) :: ps -> length (drop n (children b)) <= 3 ->
  (forall e, e ∈ drop n (children b) -> e.1 <> 0%N) ->
  b_op env pr b BFinishNode = Ok b1 -> b_later env pr b1 b2 ->
  parents b2 = (k, n2) :: ps2 -> drop n2 (children b2) = drop n (children b) ->
  b_op env pr b2 BFinishNode = Ok b3 ->
  snd <$> last (children b3) = snd <$> last (children b1).
Proof. exact (node_dedup env pr b k n ps b1 b2 n2 ps2 b3). Qed.
Print Assumptions c12_node_dedup.
(** in the example tree the two equal nodes are one allocation, at a nonzero hash *)
Example c12_nonvacuous :
  match b_build ex_env Checked cache_empty ex_ops with
  | Ok g => match kids g with [x; y] => x = y | _ => False end
  | Err _ => False
  end.
Proof. vm_compute. done. Qed.
