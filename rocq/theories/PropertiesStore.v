(** * Theorems: memory of green trees (C69-C73)

    [g_run al pr prog [] (GST ∅ 0)] runs a client of the green API ([GreenToken::new],
    [GreenNode::new], [clone], [drop], [children], [splice_children], [insert_child],
    [remove_child], [replace_child]) on reference-counted allocations; the client catches panics.
    [s_grun pr prog ([], []) = Some _] says that the program compiles (no moved handle is used,
    node methods are called on nodes), and what it computes on trees.  [pr] is the build profile. *)
From Verif Require Import StoreClient.
Local Open Scope nat_scope.

(** two nodes that share a child; an edit that shares the rest; the originals go first *)
Definition ex_prog : list gop :=
  [GOToken 1 [97%N]; GONode 2 [0]; GOClone 1; GOClone 1; GONode 3 [1; 2]; GOToken 1 [98%N];
   GOReplace 4 1 5; GODrop 4; GORead 6; GODrop 3; GORead 6; GOSplice 6 (Included 0) (Excluded 3) []; GOChild 6 1; GOChild 6 2].
(** example *)
Definition ex_obs : list gobs :=
  let t := Node 3 [Node 2 [Token 1 [97]]; Token 1 [98]]%N in
  [OHandle; OHandle; OHandle; OHandle; OHandle; OHandle; OHandle; OUnit; OTree t; OUnit; OTree t; OPanic; OHandle; ONone]%N.

(** example *)
Definition ex_env : list (option tree) :=
  [None; None; None; None; None; None; Some (Node 3 [Node 2 [Token 1 [97]]; Token 1 [98]]); None; Some (Token 1 [98]); None]%N.

(** ** C69 *)
(** a client of green trees never reads freed memory, and every handle reads as the tree it was
    made as, whatever has been cloned, dropped, edited or has panicked since *)
Theorem c69_green_programs al pr prog obs senv lk :
  galloc_ok al -> s_grun pr prog ([], []) = Some (obs, (senv, lk)) ->
  exists env st, g_run al pr prog [] (GST ∅ 0) = Ok (obs, env, st) /\
    Forall2 (fun o t => match o, t with Some a, Some t => reads (gmm st) a t | None, None => True | _, _ => False end) env senv.
Proof.
  intros Hal Hs. destruct (g_run_ok al pr Hal prog [] (GST ∅ 0) _ _ _ (grel_init pr) Hs) as (env&st&Hg&genv&lkg&->&[= -> ->]&Hok&_).
  exists (map (option_map gaddr) genv), st. split; [done|].
  assert (HF : forall g, g ∈ hs_of genv -> stored (gmm st) g).
  { intros g Hin. eapply gok_stored; [done|]. apply elem_of_app. by left. }
  clear -HF. induction genv as [|[g|] genv IH]; simpl; constructor; [apply stored_reads, HF; left| |done|].
  - apply IH. intros x Hx. apply HF. by right.
  - apply IH. intros x Hx. by apply HF.
Qed.
Print Assumptions c69_green_programs.
Example c69_example :
  s_grun Checked ex_prog ([], []) = Some (ex_obs, (ex_env, [])) /\
  match g_run ex_al Checked ex_prog [] (GST ∅ 0) with Ok (obs, env, st) => obs = ex_obs /\ size (gmm st) = 4 | Err _ => False end.
Proof. split; [reflexivity|]. vm_compute. split; reflexivity. Qed.

(** ** C70 *)
(** every count is exactly the number of handles and of stored pointers to the allocation; every
    allocation can be reached from a handle; so after the last handle no memory is in use *)
Theorem c70_exact al pr prog obs senv :
  galloc_ok al -> s_grun pr prog ([], []) = Some (obs, (senv, [])) ->
  exists env st, g_run al pr prog [] (GST ∅ 0) = Ok (obs, env, st) /\
    (forall a n c, gmm st !! a = Some (n, c) -> 0 < n /\ n = count_occ Nat.eq_dec (live_handles env) a + pointers_to (gmm st) a) /\
    (forall a, a ∈ dom (gmm st) -> exists b, b ∈ live_handles env /\ reaches (gmm st) b a) /\
    (live_handles env = [] -> gmm st = ∅).
Proof.
  intros Hal Hs. destruct (g_run_ok al pr Hal prog [] (GST ∅ 0) _ _ _ (grel_init pr) Hs) as (env&st&Hg&genv&lkg&->&[= -> Hl]&Hok&_).
  exists (map (option_map gaddr) genv), st. split; [done|]. symmetry in Hl. apply map_eq_nil in Hl as ->.
  rewrite app_nil_r in Hok.
  assert (Hlh : live_handles (map (option_map gaddr) genv) = map gaddr (hs_of genv)).
  { unfold live_handles, hs_of. clear. induction genv as [|[g|] genv IH]; simpl; [done|by rewrite IH|done]. }
  rewrite Hlh. split; [|split].
  - intros a n c Ha. split.
    + destruct n; [|lia]. by apply (proj2 Hok) in Ha.
    + rewrite pointers_to_refs. change (count_occ Nat.eq_dec (map gaddr (hs_of genv)) a) with (occ a (map gaddr (hs_of genv))).
      rewrite <-occ_app. by eapply (gi_count _ _ (proj1 Hok)).
  - intros a Ha. destruct (gok_reach _ _ _ Hok Ha) as (g&Hin&Hr). exists (gaddr g). split; [|done]. apply elem_of_map. eauto.
  - intros Hn. apply map_eq_nil in Hn. rewrite Hn in Hok. by apply gok_nil.
Qed.
Print Assumptions c70_exact.
(** the program above, with the last handles dropped *)
Example c70_example :
  (exists senv, s_grun Checked (ex_prog ++ [GODrop 6; GODrop 8]) ([], []) = Some (ex_obs ++ [OUnit; OUnit], (senv, []))) /\
  match g_run ex_al Checked (ex_prog ++ [GODrop 6; GODrop 8]) [] (GST ∅ 0) with
  | Ok (obs, env, st) => live_handles env = [] /\ size (gmm st) = 0
  | Err _ => False
  end.
Proof. split; [eexists; reflexivity|]. vm_compute. split; reflexivity. Qed.

(** ** C71 *)
(** without the condition on panics: what stays behind is exactly one allocation per construction
    that panicked, holding the children it had already taken *)
Theorem c71_leaks al pr prog obs senv lk :
  galloc_ok al -> s_grun pr prog ([], []) = Some (obs, (senv, lk)) ->
  exists env st leaked, g_run al pr prog [] (GST ∅ 0) = Ok (obs, env, st) /\ Forall2 (reads (gmm st)) leaked lk /\
    (forall a n c, gmm st !! a = Some (n, c) ->
       0 < n /\ n = count_occ Nat.eq_dec (live_handles env ++ leaked) a + pointers_to (gmm st) a) /\
    (forall a, a ∈ dom (gmm st) -> exists b, b ∈ live_handles env ++ leaked /\ reaches (gmm st) b a).
Proof.
  intros Hal Hs. destruct (g_run_ok al pr Hal prog [] (GST ∅ 0) _ _ _ (grel_init pr) Hs) as (env&st&Hg&genv&lkg&->&[= -> ->]&Hok&_).
  exists (map (option_map gaddr) genv), st, (map gaddr lkg). split; [done|].
  assert (Hlh : live_handles (map (option_map gaddr) genv) ++ map gaddr lkg = map gaddr (hs_of genv ++ lkg)).
  { rewrite map_app. f_equal. unfold live_handles, hs_of. clear. induction genv as [|[g|] genv IH]; simpl; [done|by rewrite IH|done]. }
  rewrite Hlh. split; [|split].
  - assert (HF : forall g, g ∈ lkg -> stored (gmm st) g).
    { intros g Hin. eapply gok_stored; [done|]. apply elem_of_app. by right. }
    clear -HF. induction lkg as [|g lkg IH]; simpl; constructor; [apply stored_reads, HF; left|].
    apply IH. intros x Hx. apply HF. by right.
  - intros a n c Ha. split.
    + destruct n; [|lia]. by apply (proj2 Hok) in Ha.
    + rewrite pointers_to_refs. change (count_occ Nat.eq_dec (map gaddr (hs_of genv ++ lkg)) a) with (occ a (map gaddr (hs_of genv ++ lkg))).
      rewrite <-occ_app. by eapply (gi_count _ _ (proj1 Hok)).
  - intros a Ha. destruct (gok_reach _ _ _ Hok Ha) as (g&Hin&Hr). exists (gaddr g). split; [|done]. apply elem_of_map. eauto.
Qed.
Print Assumptions c71_leaks.
(** a node of twice the same child, 32 times over, from a token of one byte: the last
    construction overflows [u32] and panics; no handle is left and 33 allocations stay *)
Definition doubling : list gop :=
  GOToken 1 [97%N] :: concat (map (fun j => [GOClone (2 * j); GONode 2 [2 * j; 2 * j + 1]]) (seq 0 32)).
Theorem c71_leak_refuted : exists al prog obs env st,
  galloc_ok al /\ g_run al Checked prog [] (GST ∅ 0) = Ok (obs, env, st) /\
  live_handles env = [] /\ gmm st <> ∅ /\ size (gmm st) = 33.
Proof.
  exists ex_al, doubling.
  assert (H : match g_run ex_al Checked doubling [] (GST ∅ 0) with
              | Ok (_, env, st) => live_handles env = [] /\ size (gmm st) = 33 | Err _ => False end).
  { vm_compute. split; reflexivity. }
  destruct (g_run ex_al Checked doubling [] (GST ∅ 0)) as [[[obs env] st]|]; [|done]. destruct H as [H1 H2].
  exists obs, env, st. split; [apply ex_al_ok|]. split; [done|]. split; [done|]. split; [|done].
  intros H. rewrite H in H2. done.
Qed.
Print Assumptions c71_leak_refuted.

(** ** C72 *)
(** the drop of a handle makes calls of drop nested at most as deep as its tree is high *)
Theorem c72_depth al pr prog obs senv lk h t :
  galloc_ok al -> s_grun pr prog ([], []) = Some (obs, (senv, lk)) -> g_peek h senv = Some t ->
  exists env st a st', g_run al pr prog [] (GST ∅ 0) = Ok (obs, env, st) /\ g_peek h env = Some a /\
    forall d, theight t <= d -> gs_drop_rec d a st = (Ok (), st').
Proof.
  intros Hal Hs Hh. destruct (g_run_ok al pr Hal prog [] (GST ∅ 0) _ _ _ (grel_init pr) Hs) as (env&st&Hg&genv&lkg&->&[= -> ->]&Hok&_).
  rewrite g_peek_map in Hh. destruct (g_peek h genv) as [g|] eqn:Eh; [|done]. injection Hh as <-.
  assert (Em : g_move [h] genv = Some ([g], <[h := None]> genv)) by by apply g_move_one.
  pose proof (hs_of_move _ _ _ _ Em) as Hp.
  assert (Hi : ginv (gmm st) (g :: hs_of (<[h := None]> genv) ++ lkg)).
  { apply (ginv_perm _ (hs_of genv ++ lkg)); [by rewrite Hp|apply Hok]. }
  destruct (gs_drop_rec_ok g (gheight g) st _ (le_n _) Hi) as (st'&E&_).
  exists (map (option_map gaddr) genv), st, (gaddr g), st'. split; [done|]. rewrite g_peek_map, Eh. split; [done|].
  intros d Hd. eapply gs_drop_rec_more; [done|]. rewrite gheight_erase. done.
Qed.
Print Assumptions c72_depth.
(** there is no bound that suffices for all trees: for every depth there is a program of that many
    calls whose only handle needs more *)
Theorem c72_no_bound al d : galloc_ok al ->
  exists obs env st a, g_run al Checked (chain_prog d) [] (GST ∅ 0) = Ok (obs, env, st) /\ live_handles env = [a] /\
    fst (gs_drop_rec d a st) = Err Diverge.
Proof.
  intros Hal. destruct (chain_run d) as [obs Hs].
  destruct (g_run_ok al Checked Hal _ [] (GST ∅ 0) _ _ _ (grel_init _) Hs) as (env&st&Hg&genv&lkg&->&[= Hsv Hl]&Hok&_).
  symmetry in Hl. apply map_eq_nil in Hl as ->. rewrite app_nil_r in Hok.
  assert (exists g, hs_of genv = [g] /\ erase g = chain_tree d /\ live_handles (map (option_map gaddr) genv) = [gaddr g]) as (g&Hh&He&Hlh).
  { clear -Hsv. revert Hsv. generalize (chain_tree d) as t. induction d as [|d IH] in genv |- *; intros t.
    - simpl. destruct genv as [|[g|] [|? ?]]; simpl; try done. intros [= ->]. by exists g.
    - simpl. destruct genv as [|[g|] genv]; simpl; try done. intros [= H]. apply IH in H as (g&?&?&?). by exists g. }
  exists obs, (map (option_map gaddr) genv), st, (gaddr g). split; [done|]. split; [done|]. rewrite Hh in Hok.
  apply chain_too_deep; [by eapply chain_is_chain|rewrite gheight_erase, He, chain_height; lia|apply Hok].
Qed.
Print Assumptions c72_no_bound.

(** ** C73 *)
(** the bookkeeping of Heap.v (the list of owned green elements) against counts: [backs st h] says
    that the allocations of [st] are those of the elements owned in [h], shared where addresses
    agree, with exact counts, plus leaked nodes *)
Theorem c73_init hn ck : backs (GST ∅ 0) (HP hn [] ck).
Proof. exists []. apply gok_empty. Qed.
Print Assumptions c73_init.
(** an element that Heap.v regards as live is allocated; without leaks also conversely *)
Theorem c73_live st h a : backs st h -> (a ∈ live_addrs (ow h) -> a ∈ dom (gmm st)) /\
  (gok (gmm st) (ow h) -> a ∈ dom (gmm st) -> a ∈ live_addrs (ow h)).
Proof. intros Hb. split; [by apply backs_live|]. intros Hok. apply (proj1 (gok_dom _ _ _ Hok)). Qed.
Print Assumptions c73_live.
(** [to_owned] and [drop] do the same on both sides *)
Theorem c73_own st h x p g : backs st h -> x ∈ ow h -> gsub x p = Some g ->
  exists h' st', h_green_own g h = (Ok (), h') /\ gs_clone (gaddr g) st = (Ok (), st') /\ backs st' h'.
Proof. apply backs_own. Qed.
Print Assumptions c73_own.
Theorem c73_drop st h g : backs st h -> g ∈ ow h ->
  exists h' st', h_green_drop g h = (Ok (), h') /\ gs_drop (gaddr g) st = (Ok (), st') /\ backs st' h'.
Proof. apply backs_drop. Qed.
Print Assumptions c73_drop.
(** so do the three constructors that edits use: same outcome, for an address that the allocator
    of Heap.v may return *)
Theorem c73_build al st h x p g : galloc_ok al -> backs st h -> x ∈ ow h -> gsub x p = Some g ->
  (forall i u, u ∈ ow h -> exists r st', gs_replace al Checked (gaddr g) i (gaddr u) st = (r, st') /\
     same_build h (fun a => green_replace_child Checked a g i u) (Some u) r st') /\
  (forall i u, u ∈ ow h -> exists r st', gs_insert al Checked (gaddr g) i (gaddr u) st = (r, st') /\
     same_build h (fun a => green_insert_child Checked a g i u) (Some u) r st') /\
  (forall i, exists r st', gs_remove al Checked (gaddr g) i st = (r, st') /\
     same_build h (fun a => green_remove_child Checked a g i) None r st').
Proof.
  intros Hal Hb Hx Hp. split; [|split].
  - intros i u Hu. by apply (backs_replace al Hal st h Hb x Hx p g Hp i u Hu).
  - intros i u Hu. by apply (backs_splice al Hal st h Hb x Hx p g Hp (Included i) (Excluded i) [u] (Some u)).
  - intros i. by apply (backs_splice al Hal st h Hb x Hx p g Hp (Included i) (Included i) [] None).
Qed.
Print Assumptions c73_build.
(** a heap with one owned node of two children, backed by memory *)
Example c73_example : exists st h g x, backs st h /\ x ∈ ow h /\ gsub x [0] = Some g /\ gaddr g <> gaddr x.
Proof.
  assert (Hs : s_grun Checked [GOToken 1 [97%N]; GONode 2 [0]] ([], []) = Some ([OHandle; OHandle], ([None; Some (Node 2 [Token 1 [97]])]%N, []))) by done.
  destruct (g_run_ok ex_al Checked ex_al_ok _ [] (GST ∅ 0) _ _ _ (grel_init _) Hs) as (env1&st&Hg&genv&lkg&_&[= Hsv Hl]&Hok&_).
  clear Hs Hg. symmetry in Hl. apply map_eq_nil in Hl as ->. rewrite app_nil_r in Hok.
  destruct genv as [|[?|] [|[g|] [|? ?]]]; try discriminate Hsv. injection Hsv as He.
  unfold hs_of in Hok. simpl in Hok.
  destruct g as [a k tl cs|]; [|discriminate He]. destruct cs as [|[o g2] [|? ?]]; try discriminate He.
  injection He as _ He. destruct g2 as [|a2 k2 s2]; [discriminate He|].
  assert (Hst : stored (gmm st) (GNode a k tl [(o, GTok a2 k2 s2)])) by (eapply gok_stored; [exact Hok|left]).
  exists st, (HP ∅ [GNode a k tl [(o, GTok a2 k2 s2)]] 0), (GTok a2 k2 s2), (GNode a k tl [(o, GTok a2 k2 s2)]).
  split; [by exists []|]. split; [left|]. split; [reflexivity|]. simpl. intros ->.
  pose proof (stored_det _ _ _ Hst (stored_gsub _ _ [0] _ Hst eq_refl) eq_refl). discriminate.
Qed.
