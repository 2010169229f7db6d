(** * Texts and formatting on any tree do what they do on immutable trees *)
From Verif Require Export Show TextFacts FmtFacts.
Local Open Scope nat_scope.

Lemma tr_lift {A B C} T G K F (r : res A) (k : A -> script B) (f : A -> res C) S :
  (forall a, r = Ok a -> tracks T G K F (k a) (f a) S) -> tracks T G K F (p_lift r ≫= k) (r ≫= f) S.
Proof. intros H. destruct r as [a|[| |]]; [by apply H|apply tr_panic|by apply tr_err|by apply tr_err]. Qed.
Lemma tr_lift_ret {A} T G K F (r : res A) (S : A -> A -> rs -> Prop) : (forall a, r = Ok a -> S a a F) -> tracks T G K F (p_lift r) r S.
Proof. intros H. apply tr_bind_ret. rewrite <- (res_bind_ret r) at 2. apply tr_lift. intros a E. eapply tr_ret; [reflexivity|]. by apply H. Qed.

Section facts.
Context (T : list (bool * tree)) (G : list (option tree)) (K : list nat).
Context (n : nat) (m : bool) (root : green) (HT : T !! n = Some (m, erase root)) (Hwf : wfg root) (Hco : coherent root).
Local Notation tr := (tracks T G K).
Local Notation own c s := (s, (n, c_path c)).
Local Notation look_of := (look_of m root).

Lemma look_trange c : cin root c -> c_text_range c = Ok (l_trange (look_of c)).
Proof using Hwf. intros Hc. destruct (look_range m root Hwf c Hc) as [E1 E2]. rewrite E2. unfold l_trange. by rewrite E1. Qed.
Lemma look_text c : l_text (look_of c) = token_text c.
Proof. unfold l_text, token_text. simpl. by destruct (c_green c). Qed.

Lemma twr_look r c : cin root c -> token_with_range r c =
  match range_intersect r (l_trange (look_of c)) with None => Ok None | Some x => x' ← range_sub x (rstart (l_trange (look_of c))); Ok (Some (c, x')) end.
Proof using Hwf. intros Hc. unfold token_with_range. by rewrite (look_trange c Hc). Qed.

(** an item of [tokens_with_ranges] *)
Definition Ritem (x : cursor * TextRange.range) (y : pitem) (F : rs) : Prop := Rc n root x.1 y.1 F /\ y.2 = x.2.
Lemma Ritem_one x y F : Ritem x y F -> exists h, F = [(y.1, h)].
Proof. intros [H _]. by eapply Rc_one. Qed.
(** what the token iterator has still to give *)
Definition Ritems (r : TextRange.range) (nx : nat) (its : list (cursor * TextRange.range)) (w : walk) (F : rs) : Prop :=
  exists start po evs, Rwalk n root true start po w F /\ yields preorder_wt_next po evs /\ length evs < nx /\
    filter_map_res (token_with_range r) (List.filter (fun el => negb (c_is_node el)) (filter_map enter_only evs)) = Ok its.
Lemma Ritems_drop r nx its w F : Ritems r nx its w F -> tr F (p_walk_drop w) (Ok ()) (fun _ _ F' => F' = []).
Proof. intros (start&po&evs&Hw&_). by eapply tr_walk_drop. Qed.
Lemma Ritems_drop_k {A B} r nx its w F F1 F2 (k : unit -> script A) (x : res B) S : Ritems r nx its w F1 -> F ≡ₚ F1 ++ F2 -> tr F2 (k ()) x S -> tr F (p_walk_drop w ≫= k) x S.
Proof.
  intros Hi HF Hk. change x with (Ok () ≫= fun _ : unit => x). eapply tr_call; [by eapply Ritems_drop|exact HF|]. by intros [] [] F' ->.
Qed.
Lemma tr_twr_next r : forall nx its w F, Ritems r nx its w F -> forall fuel, nx <= fuel ->
  tr F (p_twr_next r fuel w) (Ok ()) (fun _ a F' => exists F1 F2, F' ≡ₚ F1 ++ F2 /\ Ropt Ritem (head its) a.1 F1 /\ Ritems r nx (tail its) a.2 F2).
Proof using HT Hwf Hco.
  intros nx its w F (start&po&evs&Hw&Hy&Hlt&Hits). revert nx its w F Hw Hlt Hits.
  induction Hy as [po po' E1 E2|po e po' evs E1 Hy IH]; intros nx its w F Hw Hlt Hits fuel Hf; (destruct fuel as [|fuel]; [simpl in Hlt; lia|]); cbn [p_twr_next].
  - pose proof (tr_eqn _ _ _ _ _ _ _ (tr_walk_next T G K n m root HT Hwf Hco true start po w F Hw)) as Hn. change (c_walk_next true po) with (preorder_wt_next po) in Hn. rewrite E1 in Hn.
    change (Ok ()) with (Ok (@None (wevent cursor), po') ≫= fun _ => Ok ()). eapply tr_call; [exact Hn|by rewrite app_nil_r|].
    intros [a w'] [o po''] F' ([= <- <-]&F1&F2&HF&HR&Hw'&_). rewrite app_nil_r. cbn [fst snd] in *. unfold Ropt in HR. destruct a; [done|]. subst F1.
    injection Hits as <-. eapply tr_ret; [reflexivity|]. exists [], F2. split_and!; [done|done|]. exists start, po', []. split_and!; [done| |done|done]. by eapply yields_nil.
  - pose proof (tr_eqn _ _ _ _ _ _ _ (tr_walk_next T G K n m root HT Hwf Hco true start po w F Hw)) as Hn. change (c_walk_next true po) with (preorder_wt_next po) in Hn. rewrite E1 in Hn.
    change (Ok ()) with (Ok (Some e, po') ≫= fun _ => Ok ()). eapply tr_call; [exact Hn|by rewrite app_nil_r|].
    intros [a w'] [o po''] F' ([= <- <-]&F1&F2&HF&HR&Hw'&_). rewrite app_nil_r. cbn [fst snd] in *. unfold Ropt in HR. destruct a as [a|]; [|done].
    simpl in Hlt. assert (Hrec : forall its', filter_map_res (token_with_range r) (List.filter (fun el => negb (c_is_node el)) (filter_map enter_only evs)) = Ok its' ->
      tr F2 (p_twr_next r fuel w') (Ok ()) (fun _ a F' => exists F1 F2, F' ≡ₚ F1 ++ F2 /\ Ropt Ritem (head its') a.1 F1 /\ Ritems r nx (tail its') a.2 F2)).
    { intros its' Hi. eapply tracks_mono; [apply (IH (pred nx) its' w' F2 Hw' ltac:(lia) Hi fuel); lia|]. intros [] a' F3 (F4&F5&H1&H2&st'&po3&evs3&H3&H4&H5&H6). exists F4, F5.
      split_and!; [done|done|]. exists st', po3, evs3. split_and!; [done|done|lia|done]. }
    destruct e as [c|c], a as [s|s]; try done.
    + destruct HR as [[[Hc ->] _] _]. eapply (tr_look T G K n m root HT); [exact Hc|rewrite HF; left|]. rewrite l_node_look. cbn [filter_map enter_only] in Hits.
      destruct (c_is_node c) eqn:En.
      * cbn [List.filter] in Hits. rewrite En in Hits. cbn [negb] in Hits. eapply tr_drop; [exact HF|]. by apply Hrec.
      * cbn [List.filter] in Hits. rewrite En in Hits. cbn [negb filter_map_res] in Hits. rewrite (twr_look r c Hc) in Hits.
        destruct (range_intersect r (l_trange (look_of c))) as [x|]; cbn [mbind res_bind] in Hits.
        -- destruct (range_sub x (rstart (l_trange (look_of c)))) as [x'|] eqn:Ex; [|done]. cbn [mbind res_bind p_lift] in *.
           destruct (filter_map_res _ _) as [its'|] eqn:Ei in Hits; [|done]. injection Hits as <-. cbn [head tail].
           eapply tr_ret; [reflexivity|]. exists [own c s], F2. split_and!; [exact HF|by split|]. exists start, po', evs. split_and!; [done|done|lia|done].
        -- destruct (filter_map_res _ _) as [its'|] eqn:Ei in Hits; [|done]. injection Hits as <-. eapply tr_drop; [exact HF|]. by apply Hrec.
    + destruct HR as [[[Hc ->] _] _]. eapply tr_drop; [exact HF|]. by apply Hrec.
Qed.
Lemma tr_chunk {A B} F x y (k : str -> script A) (f : str -> res B) S Fx F0 : Ritem x y Fx -> F ≡ₚ Fx ++ F0 ->
  (forall a, chunk_text x = Ok a -> tr F (k a) (f a) S) -> tr F (p_chunk y ≫= k) (chunk_text x ≫= f) S.
Proof using HT.
  intros [[Hc HFx] Hr] HF Hk. unfold p_chunk. apply tr_assoc. eapply (tr_look T G K n m root HT); [exact Hc|rewrite HF, HFx; left|].
  rewrite look_text, Hr. apply tr_lift. done.
Qed.
Lemma tr_try_fold {X E} (f : X -> str -> res (X + E)) r nx : forall its fuel w acc F, Ritems r nx its w F -> length its < fuel ->
  tr F (p_try_fold f r nx fuel w acc) (try_fold f acc its) (fun b a F' => a = b /\ F' = []).
Proof using HT Hwf Hco.
  induction its as [|x its IH]; intros fuel w acc F Hi Hf; (destruct fuel as [|fuel]; [simpl in Hf; lia|]); cbn [p_try_fold try_fold].
  - change (Ok (inl acc)) with (Ok () ≫= fun _ : unit => Ok (@inl X E acc)). eapply tr_call; [by apply (tr_twr_next _ _ _ _ _ Hi)|by rewrite app_nil_r|].
    intros [a w'] [] F' (F1&F2&HF&HR&Hi'). rewrite app_nil_r. cbn [fst snd head tail] in *. unfold Ropt in HR. destruct a; [done|]. subst F1.
    eapply Ritems_drop_k; [exact Hi'|rewrite HF; by rewrite app_nil_r|]. by eapply tr_ret.
  - match goal with |- tracks _ _ _ _ _ ?r _ => change r with (Ok () ≫= fun _ : unit => r) end. eapply tr_call; [by apply (tr_twr_next _ _ _ _ _ Hi)|by rewrite app_nil_r|].
    intros [a w'] [] F' (F1&F2&HF&HR&Hi'). rewrite app_nil_r. cbn [fst snd head tail] in *. unfold Ropt in HR. destruct a as [y|]; [|done].
    eapply tr_chunk; [exact HR|exact HF|]. intros chunk _. apply tr_lift. intros v _. destruct (Ritem_one _ _ _ HR) as [h ->]. eapply tr_drop; [exact HF|].
    destruct v as [acc'|e].
    + apply IH; [done|simpl in Hf; lia].
    + eapply Ritems_drop_k; [exact Hi'|by rewrite app_nil_r|]. by eapply tr_ret.
Qed.
(** the items of the text of the node at [c] with range [r] *)
Lemma walk_items a b c : cin root c -> exists evs its, yields preorder_wt_next (preorder_new c) evs /\ length evs <= 2 * gsize (c_green c) /\ length its <= length evs /\
  tokens_with_ranges (ST c (TR a b)) = Ok its /\ Forall item_ok its /\
  filter_map_res (token_with_range (TR a b)) (List.filter (fun el => negb (c_is_node el)) (filter_map enter_only evs)) = Ok its /\
  ((a <= b)%N -> sconcat <$> mapM chunk_text its =
    str_slice (gtext (c_green c)) (N.min (a - c_offset c) (blen (gtext (c_green c)))) (N.min (b - c_offset c) (blen (gtext (c_green c))))).
Proof using Hwf Hco.
  intros Hc. destruct (preorder_wt_all root _ c Hwf Hco Hc) as (evs&Hy&HF). pose proof (walk_fuel _ _ _ _ HF) as Hlen.
  destruct (tokens_of root Hwf Hco _ c Hc) as (l&ds&Hl&Hds&Hi&Hf).
  assert (El : l = filter_map enter_only evs). { unfold descendants_with_tokens in Hl. rewrite (yields_collect _ _ _ _ Hy) in Hl by lia. by injection Hl. }
  destruct (twr_all root Hwf a b _ Hf) as (its&Hits&Hok&Hch). exists evs, its. split; [done|]. split; [lia|]. split.
  - assert (Hm : forall ds its, filter_map_res (token_with_range (TR a b)) ds = Ok its -> length its <= length ds).
    { clear. induction ds as [|d ds IH]; intros its; simpl; [by intros [= <-]|]. destruct (token_with_range _ _) as [o|]; [|done]. cbn [mbind res_bind].
      destruct (filter_map_res _ _) as [k|]; [|done]. specialize (IH _ eq_refl). simpl. intros [= <-]. destruct o; simpl; lia. }
    apply Hm in Hits. etrans; [exact Hits|]. subst ds l. clear. etrans; [|apply (le_n (length evs))].
    assert (H1 : forall (f : cursor -> bool) l, length (List.filter f l) <= length l) by (intros f l; induction l as [|x l IH]; simpl; [done|]; destruct (f x); simpl; lia).
    etrans; [apply H1|]. induction evs as [|[|] evs IH]; simpl; lia.
  - split_and!; [|done| |].
    + unfold tokens_with_ranges. simpl. rewrite Hl. simpl. by rewrite <- Hds.
    + by rewrite <- El, <- Hds.
    + intros Hab. rewrite Hch, Hi. destruct (ttoks_tiled (c_offset c) (erase (c_green c))) as [Ht1 Ht2]. by rewrite (chunks_slice a b _ _ Hab Ht1), Ht2.
Qed.
(** starting the token iterator *)
Lemma tr_items_new {A B} r nx F s c its (k : walk -> script A) (x : res B) S : cin root c -> own c s ∈ F -> 2 * gsize (c_green c) < nx ->
  tokens_with_ranges (ST c r) = Ok its ->
  (length its < nx -> forall w F1, Ritems r nx its w F1 -> tr (F1 ++ F) (k w) x S) -> tr F (p_walk_new s ≫= k) x S.
Proof using Hwf Hco.
  intros Hc Hin Hlt Hits Hk. destruct r as [a b]. destruct (walk_items a b c Hc) as (evs&its'&Hy&Hl1&Hl2&Ht&_&Hi&_). rewrite Hits in Ht. injection Ht as <-.
  eapply (tr_walk_new T G K n root true); [exact Hc|done|exact Hin|]. intros w F1 Hw. apply Hk; [lia|]. exists c, (preorder_new c), evs. split_and!; [done|done|lia|done].
Qed.
Lemma tr_try_fold_chunks {X E} (f : X -> str -> res (X + E)) fuel t c acc F : cin root c -> own c (pt_node t) ∈ F -> 2 * gsize (c_green c) < fuel ->
  tr F (p_try_fold_chunks fuel t acc f) (try_fold_chunks (ST c (pt_range t)) acc f) (kept F (fun b a F' => a = b /\ F' = [])).
Proof using HT Hwf Hco.
  intros Hc Hin Hf. destruct (pt_range t) as [x y] eqn:Er. destruct (walk_items x y c Hc) as (evs&its&_&_&_&Hits&_). unfold p_try_fold_chunks, try_fold_chunks. rewrite Hits. cbn [mbind res_bind].
  eapply tr_items_new; [exact Hc|exact Hin|exact Hf|exact Hits|]. intros Hl w F1 Hi. rewrite <- (res_bind_ret (try_fold _ _ _)). apply tr_bind_ret. rewrite Er.
  eapply tr_call; [by apply tr_try_fold|reflexivity|]. intros a b F' [-> ->]. eapply tr_ret; [reflexivity|]. by exists [].
Qed.
Lemma tr_skip_empty r nx : forall its x fuel y w F F1 F2, Ritem x y F1 -> Ritems r nx its w F2 -> F ≡ₚ F1 ++ F2 -> length its < fuel ->
  tr F (p_skip_empty r nx fuel y w) (Ok ()) (fun _ a F' =>
    match skip_empty x its with
    | None => a.1 = None /\ Ritems r nx [] a.2 F'
    | Some (x', its') => exists y' F1 F2, a.1 = Some y' /\ F' ≡ₚ F1 ++ F2 /\ Ritem x' y' F1 /\ Ritems r nx its' a.2 F2 /\ length its' <= length its
    end).
Proof using HT Hwf Hco.
  induction its as [|x' its IH]; intros x fuel y w F F1 F2 Hx Hi HF Hf; (destruct fuel as [|fuel]; [simpl in Hf; lia|]); cbn [p_skip_empty skip_empty];
    assert (Er : range_is_empty y.2 = range_is_empty x.2) by (by rewrite (proj2 Hx)); rewrite Er; destruct (range_is_empty x.2).
  - change (Ok ()) with (Ok () ≫= fun _ : unit => Ok ()). eapply tr_call; [by apply (tr_twr_next _ _ _ _ _ Hi)|rewrite HF; apply Permutation_app_comm|].
    intros [a w'] [] F' (F3&F4&HF'&HR&Hi'). cbn [fst snd head tail] in *. unfold Ropt in HR. destruct a; [done|]. subst F3.
    destruct (Ritem_one _ _ _ Hx) as [h ->]. eapply (tr_drop T G K _ F4 _ h); [rewrite HF'; psolve|]. eapply tr_ret; [reflexivity|]. by split.
  - eapply tr_ret; [exact HF|]. exists y, F1, F2. by split_and!.
  - change (Ok ()) with (Ok () ≫= fun _ : unit => Ok ()). eapply tr_call; [by apply (tr_twr_next _ _ _ _ _ Hi)|rewrite HF; apply Permutation_app_comm|].
    intros [a w'] [] F' (F3&F4&HF'&HR&Hi'). cbn [fst snd head tail] in *. unfold Ropt in HR. destruct a as [y'|]; [|done].
    destruct (Ritem_one _ _ _ Hx) as [h ->]. eapply (tr_drop T G K _ (F3 ++ F4) _ h); [rewrite HF'; psolve|]. eapply tracks_mono; [eapply (IH x'); [exact HR|exact Hi'|done|simpl in Hf; lia]|].
    intros [] a F5. destruct (skip_empty x' its) as [[x3 its3]|]; [|done]. intros (y3&F6&F7&H1&H2&H3&H4&H5). exists y3, F6, F7. split_and!; try done. simpl. lia.
  - eapply tr_ret; [exact HF|]. exists y, F1, F2. by split_and!.
Qed.
Lemma tr_all_empty r nx : forall its fuel w F, Ritems r nx its w F -> length its < fuel ->
  tr F (p_all_empty r nx fuel w) (Ok (forallb (fun it => range_is_empty it.2) its)) (fun b a F' => a.1 = b /\ exists its', Ritems r nx its' a.2 F').
Proof using HT Hwf Hco.
  induction its as [|x its IH]; intros fuel w F Hi Hf; (destruct fuel as [|fuel]; [simpl in Hf; lia|]); cbn [p_all_empty forallb].
  - change (Ok true) with (Ok () ≫= fun _ : unit => Ok true). eapply tr_call; [by apply (tr_twr_next _ _ _ _ _ Hi)|by rewrite app_nil_r|].
    intros [a w'] [] F' (F1&F2&HF&HR&Hi'). rewrite app_nil_r. cbn [fst snd head tail] in *. unfold Ropt in HR. destruct a; [done|]. subst F1. eapply tr_ret; [exact HF|]. split; [done|]. by eexists.
  - match goal with |- tracks _ _ _ _ _ ?r _ => change r with (Ok () ≫= fun _ : unit => r) end. eapply tr_call; [by apply (tr_twr_next _ _ _ _ _ Hi)|by rewrite app_nil_r|].
    intros [a w'] [] F' (F1&F2&HF&HR&Hi'). rewrite app_nil_r. cbn [fst snd head tail] in *. unfold Ropt in HR. destruct a as [y|]; [|done].
    destruct (Ritem_one _ _ _ HR) as [h ->]. eapply tr_drop; [exact HF|]. rewrite (proj2 HR). destruct (range_is_empty x.2); cbn [andb].
    + apply IH; [done|simpl in Hf; lia].
    + eapply tr_ret; [reflexivity|]. split; [done|]. by eexists.
Qed.

(** ** The methods of a text *)
Local Notation meth F p r := (tr F p r (kept F (fun b a F' => a = b /\ F' = []))).
Lemma tr_fold_ret {X E B} (f : X -> str -> res (X + E)) (g : X + E -> B) fuel t c acc F : cin root c -> own c (pt_node t) ∈ F -> 2 * gsize (c_green c) < fuel ->
  meth F (p_try_fold_chunks fuel t acc f ≫= fun r => PRet (g r)) (try_fold_chunks (ST c (pt_range t)) acc f ≫= fun r => Ok (g r)).
Proof using HT Hwf Hco.
  intros Hc Hin Hf. eapply (tr_call T G K F F []); [by apply tr_try_fold_chunks|by rewrite app_nil_r|]. intros a b F' (F1&HF&->&->). rewrite app_nil_r. eapply tr_ret; [exact HF|]. by exists [].
Qed.
Lemma tr_to_string fuel t c F : cin root c -> own c (pt_node t) ∈ F -> 2 * gsize (c_green c) < fuel -> meth F (p_to_string fuel t) (st_to_string (ST c (pt_range t))).
Proof using HT Hwf Hco.
  intros Hc Hin Hf. assert (E : st_to_string (ST c (pt_range t)) = try_fold_chunks (ST c (pt_range t)) [] (fun acc chunk => Ok (@inl str unit (acc ++ chunk))) ≫= fun r => Ok (match r with inl s => s | inr _ => [] end)).
  { unfold st_to_string. by destruct (try_fold_chunks _ _ _) as [[]|]. }
  rewrite E. by apply tr_fold_ret.
Qed.
Lemma tr_contains_char fuel t ch c F : cin root c -> own c (pt_node t) ∈ F -> 2 * gsize (c_green c) < fuel -> meth F (p_contains_char fuel t ch) (st_contains_char (ST c (pt_range t)) ch).
Proof using HT Hwf Hco. apply tr_fold_ret. Qed.
Lemma tr_find_char fuel t ch c F : cin root c -> own c (pt_node t) ∈ F -> 2 * gsize (c_green c) < fuel -> meth F (p_find_char fuel t ch) (st_find_char (ST c (pt_range t)) ch).
Proof using HT Hwf Hco. apply tr_fold_ret. Qed.
Lemma tr_char_at fuel t o c F : cin root c -> own c (pt_node t) ∈ F -> 2 * gsize (c_green c) < fuel -> meth F (p_char_at fuel t o) (st_char_at (ST c (pt_range t)) o).
Proof using HT Hwf Hco. apply tr_fold_ret. Qed.
Lemma tr_eq_str fuel t s c F : cin root c -> own c (pt_node t) ∈ F -> 2 * gsize (c_green c) < fuel -> meth F (p_eq_str fuel t s) (st_eq_str (ST c (pt_range t)) s).
Proof using HT Hwf Hco. apply tr_fold_ret. Qed.

(** ** Formatting *)
Section fmt.
Context (pr : profile) (sink : str -> str -> option nat) (kfr : kind -> kind) (kdbg : kind -> str) (sdbg : str -> str).
Lemma look_head c out : cin root c -> fmt_head sink kfr kdbg c out = l_head sink kfr kdbg (look_of c) out.
Proof using Hwf. intros Hc. unfold fmt_head. rewrite (look_trange c Hc). cbn [mbind res_bind]. unfold l_head. by rewrite <- l_kind_look with (m := m) (root := root). Qed.
Lemma look_ctext c : l_text (look_of c) = c_text c.
Proof. rewrite look_text. done. Qed.
Lemma look_token c out : cin root c -> fmt_token sink kfr kdbg sdbg c out = l_token sink kfr kdbg sdbg (look_of c) out.
Proof using Hwf. intros Hc. unfold fmt_token, l_token, wseq. rewrite (look_head c out Hc). by rewrite look_ctext. Qed.
Lemma look_element c out : cin root c -> fmt_element sink kfr kdbg sdbg c out = l_element sink kfr kdbg sdbg (look_of c) out.
Proof using Hwf.
  intros Hc. unfold fmt_element, l_element, wseq. rewrite l_node_look. destruct (c_is_node c); [by rewrite (look_head c out Hc)|by rewrite (look_token c out Hc)].
Qed.
Lemma tr_fmt_loop start : forall fuel fuel' po w level out F, fuel <= fuel' -> Rwalk n root true start po w F ->
  tr F (p_fmt_loop pr sink kfr kdbg sdbg fuel' w level out) (fmt_loop pr sink kfr kdbg sdbg fuel po level out) (fun b a F' => a = b /\ F' = []).
Proof using HT Hwf Hco.
  induction fuel as [|fuel IH]; intros fuel' po w level out F Hf Hw; [by apply tr_err|]. destruct fuel' as [|fuel']; [lia|]. cbn [p_fmt_loop fmt_loop].
  eapply tr_call; [exact (tr_walk_next T G K n m root HT Hwf Hco true start po w F Hw)|by rewrite app_nil_r|].
  intros [a w'] [o po'] F' (F1&F2&HF&HR&Hw'&_). rewrite app_nil_r. cbn [fst snd] in *. unfold Ropt in HR. destruct o as [e|], a as [a|]; try done.
  - destruct e as [c|c], a as [s|s]; try done; destruct HR as [[[Hc ->] _] _].
    + eapply (tr_look T G K n m root HT); [exact Hc|rewrite HF; left|].
      assert (E : wseq (wpieces sink (replicate (Z.to_nat level) s_indent)) (fmt_element sink kfr kdbg sdbg c) out =
        wseq (wpieces sink (replicate (Z.to_nat level) s_indent)) (l_element sink kfr kdbg sdbg (look_of c)) out).
      { unfold wseq. destruct (wpieces _ _ _) as [[[] ?]|]; [|done|done]. cbn [mbind res_bind]. by apply look_element. }
      rewrite E. apply tr_lift. intros [ok out'] _. eapply tr_drop; [exact HF|]. destruct ok.
      * apply tr_lift. intros level' _. apply IH; [lia|done].
      * change (Ok (false, out')) with (Ok () ≫= fun _ : unit => Ok (false, out')). eapply tr_call; [by eapply tr_walk_drop|by rewrite app_nil_r|]. intros [] [] F3 ->. by eapply tr_ret.
    + eapply tr_drop; [exact HF|]. apply tr_lift. intros level' _. apply IH; [lia|done].
  - subst F1. match goal with |- tracks _ _ _ _ _ ?r _ => change r with (Ok () ≫= fun _ : unit => r) end.
    eapply tr_call; [by eapply tr_walk_drop|rewrite HF; by rewrite app_nil_r|]. intros [] [] F3 ->. apply tr_assert. intros _. by eapply tr_ret.
Qed.
Lemma tr_debug alternate fuel s c out F : cin root c -> own c s ∈ F -> 2 * gsize (c_green c) < fuel ->
  meth F (p_debug pr sink kfr kdbg sdbg alternate fuel s out) (if c_is_node c then fmt_node pr sink kfr kdbg sdbg alternate c out else fmt_token sink kfr kdbg sdbg c out).
Proof using HT Hwf Hco.
  intros Hc Hin Hf. unfold p_debug. eapply (tr_look T G K n m root HT); [exact Hc|exact Hin|]. rewrite l_node_look. destruct (c_is_node c) eqn:En; cbn [negb].
  - unfold fmt_node. destruct alternate.
    + eapply (tr_walk_new T G K n root true); [exact Hc|done|exact Hin|]. intros w F1 Hw. rewrite <- (res_bind_ret (fmt_loop _ _ _ _ _ _ _ _ _)). apply tr_bind_ret.
      eapply tr_call; [eapply tr_fmt_loop; [|exact Hw]; lia|reflexivity|]. intros a b F' [-> ->]. eapply tr_ret; [reflexivity|]. by exists [].
    + rewrite (look_head c out Hc). apply tr_lift_ret. intros a _. by exists [].
  - rewrite (look_token c out Hc). apply tr_lift_ret. intros a _. by exists [].
Qed.
Lemma tr_display_loop o start : forall fuel fuel' po w out F, fuel <= fuel' -> Rwalk n root true start po w F ->
  tr F (p_display_loop sink fuel' o w out) (display_loop sink fuel o po out) (fun b a F' => a = b /\ F' = []).
Proof using HT Hwf Hco.
  clear pr kfr kdbg sdbg. induction fuel as [|fuel IH]; intros fuel' po w out F Hf Hw; [by apply tr_err|]. destruct fuel' as [|fuel']; [lia|]. cbn [p_display_loop display_loop].
  eapply tr_call; [exact (tr_walk_next T G K n m root HT Hwf Hco true start po w F Hw)|by rewrite app_nil_r|].
  intros [a w'] [e po'] F' (F1&F2&HF&HR&Hw'&_). rewrite app_nil_r. cbn [fst snd] in *. unfold Ropt in HR. destruct e as [e|], a as [a|]; try done.
  - destruct e as [c|c], a as [s|s]; try done; destruct HR as [[[Hc ->] _] _].
    + eapply (tr_look T G K n m root HT); [exact Hc|rewrite HF; left|]. rewrite l_node_look. destruct (c_is_node c).
      { eapply tr_drop; [exact HF|]. apply IH; [lia|done]. }
      rewrite look_ctext. unfold wseq, display_token. apply tr_lift. intros [ok out'] _. eapply tr_drop; [exact HF|]. destruct ok; [apply IH; [lia|done]|].
      change (Ok (false, out')) with (Ok () ≫= fun _ : unit => Ok (false, out')). eapply tr_call; [by eapply tr_walk_drop|by rewrite app_nil_r|]. intros [] [] F3 ->. by eapply tr_ret.
    + eapply tr_drop; [exact HF|]. apply IH; [lia|done].
  - subst F1. match goal with |- tracks _ _ _ _ _ ?r _ => change r with (Ok () ≫= fun _ : unit => r) end.
    eapply tr_call; [by eapply tr_walk_drop|rewrite HF; by rewrite app_nil_r|]. intros [] [] F3 ->. by eapply tr_ret.
Qed.
Lemma tr_display fuel o s c out F : cin root c -> own c s ∈ F -> 2 * gsize (c_green c) < fuel ->
  meth F (p_display sink fuel o s out) (if c_is_node c then display_node sink o c out else display_token sink o c out).
Proof using HT Hwf Hco.
  clear pr kfr kdbg sdbg. intros Hc Hin Hf. unfold p_display. eapply (tr_look T G K n m root HT); [exact Hc|exact Hin|]. rewrite l_node_look. destruct (c_is_node c) eqn:En.
  - unfold display_node. eapply (tr_walk_new T G K n root true); [exact Hc|done|exact Hin|]. intros w F1 Hw. rewrite <- (res_bind_ret (display_loop _ _ _ _ _)). apply tr_bind_ret.
    eapply tr_call; [eapply tr_display_loop; [|exact Hw]; lia|reflexivity|]. intros a b F' [-> ->]. eapply tr_ret; [reflexivity|]. by exists [].
  - rewrite look_ctext. unfold display_token. apply tr_lift_ret. intros a _. by exists [].
Qed.
End fmt.
End facts.

(** ** Comparing two texts *)
Section two.
Context (T : list (bool * tree)) (G : list (option tree)) (K : list nat).
Context (n1 : nat) (m1 : bool) (root1 : green) (HT1 : T !! n1 = Some (m1, erase root1)) (Hwf1 : wfg root1) (Hco1 : coherent root1).
Context (n2 : nat) (m2 : bool) (root2 : green) (HT2 : T !! n2 = Some (m2, erase root2)) (Hwf2 : wfg root2) (Hco2 : coherent root2).
Context (rx ry : TextRange.range) (nx : nat).
Local Notation tr := (tracks T G K).
Local Notation It1 := (Ritems n1 root1 rx nx).
Local Notation It2 := (Ritems n2 root2 ry nx).
(** proof device, no counterpart in the code *)
Definition Rzip (b : bool * list (cursor * TextRange.range) * list (cursor * TextRange.range)) (a : bool * walk * walk) (F : rs) : Prop :=
  let '(b0, xs, ys) := b in let '(a0, w1, w2) := a in
  a0 = b0 /\ exists F1 F2, F ≡ₚ F1 ++ F2 /\ It1 xs w1 F1 /\ It2 ys w2 F2 /\ length xs < nx /\ length ys < nx.
Lemma tr_zip_loop : forall fuel fuel' x xs y ys x' w1 y' w2 F Fx F1 Fy F2, fuel <= fuel' ->
  Ritem n1 root1 x x' Fx -> It1 xs w1 F1 -> Ritem n2 root2 y y' Fy -> It2 ys w2 F2 -> F ≡ₚ (Fx ++ F1) ++ (Fy ++ F2) -> length xs < nx -> length ys < nx ->
  tr F (p_zip_loop rx ry nx fuel' x' w1 y' w2) (zip_loop fuel x xs y ys) Rzip.
Proof using HT1 Hwf1 Hco1 HT2 Hwf2 Hco2.
  induction fuel as [|fuel IH]; intros fuel' x xs y ys x' w1 y' w2 F Fx F1 Fy F2 Hfu Hx Hxs Hy Hys HF Hlx Hly; [by apply tr_err|].
  destruct fuel' as [|fuel']; [lia|]. cbn [p_zip_loop zip_loop].
  match goal with |- tracks _ _ _ _ _ ?r _ => change r with (Ok () ≫= fun _ : unit => r) end.
  eapply tr_call; [eapply (tr_skip_empty T G K n1 m1 root1 HT1 Hwf1 Hco1); [exact Hx|exact Hxs|reflexivity|exact Hlx]|exact HF|].
  intros [a w1'] [] F' Hr. cbn [fst snd] in Hr. destruct (skip_empty x xs) as [[x2 xs2]|].
  - destruct Hr as (x2'&Fx2&F12&->&HF'&Hx2&Hxs2&Hl2).
    match goal with |- tracks _ _ _ _ _ ?r _ => change r with (Ok () ≫= fun _ : unit => r) end.
    eapply tr_call; [eapply (tr_skip_empty T G K n2 m2 root2 HT2 Hwf2 Hco2); [exact Hy|exact Hys|reflexivity|exact Hly]|apply Permutation_app_comm|].
    intros [b w2'] [] F'' Hr. cbn [fst snd] in Hr. destruct (skip_empty y ys) as [[y2 ys2]|].
    + destruct Hr as (y2'&Fy2&F22&->&HF''&Hy2&Hys2&Hl3).
      eapply (tr_chunk T G K n1 m1 root1 HT1) with (F0 := F'' ++ F12); [exact Hx2|rewrite HF'; psolve|]. intros xt _.
      eapply (tr_chunk T G K n2 m2 root2 HT2) with (F0 := F22 ++ F'); [exact Hy2|rewrite HF''; psolve|]. intros yt _.
      destruct (Ritem_one _ _ _ _ _ Hx2) as [hx ->]. destruct (Ritem_one _ _ _ _ _ Hy2) as [hy ->].
      destruct (negb _).
      * eapply (tr_drop T G K _ (F'' ++ F12) _ hx); [rewrite HF'; psolve|]. eapply (tr_drop T G K _ (F12 ++ F22) _ hy); [rewrite HF''; psolve|]. eapply tr_ret; [reflexivity|].
        split; [done|]. exists F12, F22. split_and!; [done|done|done|lia|lia].
      * rewrite (proj2 Hx2), (proj2 Hy2). cbv zeta. apply tr_lift. intros xa _. apply tr_lift. intros ya _.
        eapply (IH fuel'); [lia|split; [exact (proj1 Hx2)|done]|exact Hxs2|split; [exact (proj1 Hy2)|done]|exact Hys2|rewrite HF', HF''; psolve|lia|lia].
    + destruct Hr as [-> Hys2]. destruct (Ritem_one _ _ _ _ _ Hx2) as [hx ->]. eapply (tr_drop T G K _ (F12 ++ F'') _ hx); [rewrite HF'; psolve|]. eapply tr_ret; [reflexivity|].
      split; [done|]. exists F12, F''. split_and!; [done|done|done|lia|simpl; lia].
  - destruct Hr as [-> Hxs2]. destruct (Ritem_one _ _ _ _ _ Hy) as [hy ->]. eapply (tr_drop T G K _ (F' ++ F2) _ hy); [psolve|]. eapply tr_ret; [reflexivity|].
    split; [done|]. exists F', F2. split_and!; [done|done|done|simpl; lia|lia].
Qed.
Lemma tr_zip_texts xs ys w1 w2 F F1 F2 : It1 xs w1 F1 -> It2 ys w2 F2 -> F ≡ₚ F1 ++ F2 -> length xs + length ys < nx ->
  tr F (p_zip_texts rx ry nx w1 w2) (zip_texts xs ys) Rzip.
Proof using HT1 Hwf1 Hco1 HT2 Hwf2 Hco2.
  intros H1 H2 HF Hl. unfold p_zip_texts, zip_texts.
  match goal with |- tracks _ _ _ _ _ ?r _ => change r with (Ok () ≫= fun _ : unit => r) end.
  eapply tr_call; [by apply (tr_twr_next T G K n1 m1 root1 HT1 Hwf1 Hco1 _ _ _ _ _ H1)|exact HF|].
  intros [a w1'] [] F' (F3&F4&HF'&HR&Hi'). cbn [fst snd] in *. destruct xs as [|x xs]; cbn [head tail] in *; unfold Ropt in HR; (destruct a as [x'|]; [try done|try done]).
  - subst F3. eapply tr_ret; [reflexivity|]. split; [done|]. exists F4, F2. rewrite HF'. simpl in *. split_and!; [done|done|done|lia|lia].
  - match goal with |- tracks _ _ _ _ _ ?r _ => change r with (Ok () ≫= fun _ : unit => r) end.
    eapply tr_call; [by apply (tr_twr_next T G K n2 m2 root2 HT2 Hwf2 Hco2 _ _ _ _ _ H2)|apply Permutation_app_comm|].
    intros [b w2'] [] F'' (F5&F6&HF''&HR2&Hi2). cbn [fst snd] in *. destruct ys as [|y ys]; cbn [head tail] in *; unfold Ropt in HR2; (destruct b as [y'|]; [try done|try done]).
    + subst F5. destruct (Ritem_one _ _ _ _ _ HR) as [h ->]. eapply (tr_drop T G K _ (F4 ++ F6) _ h); [rewrite HF', HF''; psolve|]. eapply tr_ret; [reflexivity|].
      split; [done|]. exists F4, F6. simpl in *. split_and!; [done|done|done|lia|lia].
    + simpl in Hl. eapply tr_zip_loop; [|exact HR|exact Hi'|exact HR2|exact Hi2|rewrite HF', HF''; psolve| |]; lia.
Qed.
End two.

Section two_texts.
Context (T : list (bool * tree)) (G : list (option tree)) (K : list nat).
Context (n1 : nat) (m1 : bool) (root1 : green) (HT1 : T !! n1 = Some (m1, erase root1)) (Hwf1 : wfg root1) (Hco1 : coherent root1).
Context (n2 : nat) (m2 : bool) (root2 : green) (HT2 : T !! n2 = Some (m2, erase root2)) (Hwf2 : wfg root2) (Hco2 : coherent root2).
Local Notation tr := (tracks T G K).
Lemma tr_text_eq fuel t1 t2 c1 c2 F : cin root1 c1 -> (pt_node t1, (n1, c_path c1)) ∈ F -> cin root2 c2 -> (pt_node t2, (n2, c_path c2)) ∈ F ->
  2 * gsize (c_green c1) + 2 * gsize (c_green c2) < fuel ->
  tr F (p_text_eq fuel t1 t2) (st_eqb (ST c1 (pt_range t1)) (ST c2 (pt_range t2))) (kept F (fun b a F' => a = b /\ F' = [])).
Proof using HT1 Hwf1 Hco1 HT2 Hwf2 Hco2.
  intros Hc1 Hin1 Hc2 Hin2 Hf. unfold p_text_eq, st_eqb. cbn [st_range]. destruct (negb _); [eapply tr_ret; [reflexivity|]; by exists []|].
  destruct (pt_range t1) as [a1 b1] eqn:Er1, (pt_range t2) as [a2 b2] eqn:Er2. rewrite <- Er1, <- Er2.
  destruct (walk_items root1 Hwf1 Hco1 a1 b1 c1 Hc1) as (evs1&its1&_&Hl1&Hl1'&Hits1&_). destruct (walk_items root2 Hwf2 Hco2 a2 b2 c2 Hc2) as (evs2&its2&_&Hl2&Hl2'&Hits2&_).
  rewrite <- Er1 in Hits1. rewrite <- Er2 in Hits2. rewrite Hits1, Hits2. cbn [mbind res_bind].
  eapply (tr_items_new T G K n1 root1); [exact Hwf1|exact Hco1|exact Hc1|exact Hin1| |exact Hits1|]; [instantiate (1 := fuel); lia|]. intros _ w1 F1 Hi1.
  eapply (tr_items_new T G K n2 root2); [exact Hwf2|exact Hco2|exact Hc2|set_solver| |exact Hits2|]; [instantiate (1 := fuel); lia|]. intros _ w2 F2 Hi2.
  eapply (tr_call T G K _ (F1 ++ F2) F); [eapply tr_zip_texts; [exact HT1|exact Hwf1|exact Hco1|exact HT2|exact Hwf2|exact Hco2|exact Hi1|exact Hi2|reflexivity|lia]|psolve|].
  intros [[mis w1'] w2'] [[b0 xs] ys] F' (->&F3&F4&HF'&Hx&Hy&Hlx&Hly).
  set (fx := forallb (fun it : cursor * TextRange.range => range_is_empty it.2) xs). set (fy := forallb (fun it : cursor * TextRange.range => range_is_empty it.2) ys).
  assert (E : Ok (negb b0 && fx && fy) = Ok (if b0 then false else fx) ≫= fun b => Ok (if b : bool then fy else false) ≫= fun b => Ok b) by (by destruct b0, fx, fy). rewrite E. clear E.
  eapply (tr_call T G K _ F3 (F4 ++ F) _ _ _ _ (fun b a F' => a.1 = b /\ exists its, Ritems n1 root1 (pt_range t1) fuel its a.2 F')); [|rewrite HF'; psolve|].
  { destruct b0; [eapply tr_ret; [reflexivity|]; split; [done|by eexists]|]. by apply (tr_all_empty T G K n1 m1 root1 HT1 Hwf1 Hco1). }
  intros [b1' w1''] b1'' F5 [Hb [its5 Hi5]]. cbn [fst snd] in Hb, Hi5. subst b1''.
  eapply (tr_call T G K _ F4 (F5 ++ F) _ _ _ _ (fun b a F' => a.1 = b /\ exists its, Ritems n2 root2 (pt_range t2) fuel its a.2 F')); [|psolve|].
  { destruct b1'; [by apply (tr_all_empty T G K n2 m2 root2 HT2 Hwf2 Hco2)|]. eapply tr_ret; [reflexivity|]; split; [done|by eexists]. }
  intros [b2' w2''] b2'' F6 [Hb [its6 Hi6]]. cbn [fst snd] in Hb, Hi6. subst b2''.
  eapply Ritems_drop_k; [exact Hi6|reflexivity|]. eapply Ritems_drop_k; [exact Hi5|reflexivity|]. eapply tr_ret; [reflexivity|]. by exists [].
Qed.
End two_texts.

(** ** Texts of any range *)
Section stale.
Context (root : green) (Hwf : wfg root) (Hco : coherent root).
(** what is in range [a..b] of the text of the element at [c], as far as there is such text *)
Definition clamped (c : cursor) (a b : N) : res str :=
  let s := gtext (c_green c) in str_slice s (N.min (a - c_offset c) (blen s)) (N.min (b - c_offset c) (blen s)).
Lemma stale_items a b c : cin root c -> (a <= b)%N -> exists its, tokens_with_ranges (ST c (TR a b)) = Ok its /\ Forall item_ok its /\ sconcat <$> mapM chunk_text its = clamped c a b.
Proof using Hwf Hco. intros Hc Hab. destruct (walk_items root Hwf Hco a b c Hc) as (evs&its&_&_&_&H1&H2&_&H3). exists its. split_and!; [done|done|]. by apply H3. Qed.
Lemma stale_to_string a b c : cin root c -> (a <= b)%N -> st_to_string (ST c (TR a b)) = clamped c a b.
Proof using Hwf Hco.
  intros Hc Hab. destruct (stale_items a b c Hc Hab) as (its&Hi&_&Hm). unfold st_to_string, try_fold_chunks. rewrite Hi. cbn [mbind res_bind].
  rewrite <- Hm. destruct (mapM chunk_text its) as [cs|e] eqn:E.
  - rewrite (try_fold_ok _ _ _ _ E). clear. cbn. enough (H : forall acc, sfold (fun acc0 chunk => Ok (inl (acc0 ++ chunk))) acc cs = Ok (@inl str unit (acc ++ sconcat cs))) by (by rewrite H).
    induction cs as [|s cs IH]; intros acc; cbn [sfold]; [by rewrite app_nil_r|]. cbn. rewrite IH. by rewrite <- app_assoc.
  - rewrite (try_fold_err (fun a s => a ++ s) _ _ _ E). done.
Qed.
Lemma stale_fold {X E} a b c y (f : X -> str -> res (X + E)) acc : cin root c -> (a <= b)%N -> clamped c a b = Ok y ->
  exists cs, try_fold_chunks (ST c (TR a b)) acc f = sfold f acc cs /\ sconcat cs = y /\ (blen y <= u32_max)%N.
Proof using Hwf Hco.
  intros Hc Hab Hy. destruct (stale_items a b c Hc Hab) as (its&Hi&_&Hm). unfold try_fold_chunks. rewrite Hi. cbn [mbind res_bind].
  rewrite Hy in Hm. destruct (mapM chunk_text its) as [cs|e] eqn:Ec; [|done]. injection Hm as Hm. exists cs.
  rewrite (try_fold_ok _ _ _ _ Ec). split; [done|]. split; [done|]. apply str_slice_len in Hy. pose proof (cursor_at_fits root Hwf _ _ Hc). unfold gtext in *. lia.
Qed.
Lemma stale_find a b c y ch : cin root c -> (a <= b)%N -> clamped c a b = Ok y -> st_find_char (ST c (TR a b)) ch = Ok (str_find y ch).
Proof using Hwf Hco.
  intros Hc Hab Hy. unfold st_find_char. match goal with |- context [try_fold_chunks _ 0%N ?f] => destruct (stale_fold a b c y f 0%N Hc Hab Hy) as (cs&->&Hs&Hf) end.
  rewrite sfold_find by (rewrite Hs; lia). rewrite Hs. cbn [mbind res_bind]. by destruct (str_find y ch).
Qed.
Lemma stale_contains a b c y ch : cin root c -> (a <= b)%N -> clamped c a b = Ok y -> st_contains_char (ST c (TR a b)) ch = Ok (str_contains y ch).
Proof using Hwf Hco.
  intros Hc Hab Hy. unfold st_contains_char. match goal with |- context [try_fold_chunks _ _ ?f] => destruct (stale_fold a b c y f Datatypes.tt Hc Hab Hy) as (cs&->&Hs&Hf) end.
  rewrite sfold_contains, Hs. cbn [mbind res_bind]. by destruct (str_contains y ch).
Qed.
Lemma stale_char_at a b c y o : cin root c -> (a <= b)%N -> clamped c a b = Ok y -> st_char_at (ST c (TR a b)) o = char_from y o.
Proof using Hwf Hco.
  intros Hc Hab Hy. unfold st_char_at. match goal with |- context [try_fold_chunks _ 0%N ?f] => destruct (stale_fold a b c y f 0%N Hc Hab Hy) as (cs&->&Hs&Hf) end.
  rewrite sfold_char_at by (rewrite ?Hs; lia). rewrite Hs, N.sub_0_r. by destruct (char_from y o) as [[]|].
Qed.
Lemma stale_eq_str a b c y rhs : cin root c -> (a <= b)%N -> clamped c a b = Ok y -> st_eq_str (ST c (TR a b)) rhs = Ok (bool_decide (y = rhs)).
Proof using Hwf Hco.
  intros Hc Hab Hy. unfold st_eq_str. match goal with |- context [try_fold_chunks _ rhs ?f] => destruct (stale_fold a b c y f rhs Hc Hab Hy) as (cs&->&Hs&Hf) end.
  by rewrite sfold_eq_str, Hs.
Qed.
End stale.
(** [zip_texts] of texts of different lengths: it only finds that they differ where both have text *)
Lemma zip_loop_any fuel : forall x xs y ys sx cs sy ds,
  chunk_text x = Ok sx -> mapM chunk_text xs = Ok cs -> chunk_text y = Ok sy -> mapM chunk_text ys = Ok ds ->
  Forall item_ok (x :: xs) -> Forall item_ok (y :: ys) ->
  (1 <= fuel)%nat -> (ne x + length xs + ne y + length ys <= fuel)%nat ->
  exists r, zip_loop fuel x xs y ys = Ok r /\
    (verdict r = true -> sx ++ sconcat cs `prefix_of` sy ++ sconcat ds \/ sy ++ sconcat ds `prefix_of` sx ++ sconcat cs).
Proof.
  induction fuel as [|fuel IH]; intros x xs y ys sx cs sy ds Hx Hxs Hy Hys Hokx Hoky Hf1 Hf2; [lia|]. cbn [zip_loop].
  pose proof (skip_empty_spec _ _ _ _ Hx Hxs Hokx) as Sx. pose proof (skip_empty_spec _ _ _ _ Hy Hys Hoky) as Sy.
  destruct (skip_empty x xs) as [[x' xs']|].
  2:{ eexists. split; [done|]. intros _. left. rewrite Sx. apply prefix_nil. }
  destruct Sx as (sx'&cs'&Hx'&Hxs'&Ex&Nx&Hokx'&Lx). rewrite Ex.
  destruct (skip_empty y ys) as [[y' ys']|].
  2:{ eexists. split; [done|]. intros _. right. rewrite Sy. apply prefix_nil. }
  destruct Sy as (sy'&ds'&Hy'&Hys'&Ey&Ny&Hoky'&Ly). rewrite Ey. clear Hx Hxs Hy Hys Hokx Hoky Ex Ey sx cs sy ds.
  rewrite Hx', Hy'. cbn [mbind res_bind].
  pose proof (chunk_len _ _ Hx') as Lxx. pose proof (chunk_len _ _ Hy') as Lyy.
  inversion Hokx' as [|?? [Ox1 Ox2] Hxs1]; subst. inversion Hoky' as [|?? [Oy1 Oy2] Hys1]; subst.
  unfold range_len. replace (rend x'.2 - rstart x'.2)%N with (blen sx') by lia. replace (rend y'.2 - rstart y'.2)%N with (blen sy') by lia.
  destruct (starts_with sx' sy') eqn:E1; [|destruct (starts_with sy' sx') eqn:E2].
  - apply starts_with_iff in E1 as (q&->). rewrite orb_true_l. cbn [negb]. rewrite blen_app in *.
    replace (N.min (blen sy' + blen q) (blen sy')) with (blen sy') by lia. rewrite !add32_ok by lia. cbn [mbind res_bind].
    pose proof (chunk_advance _ _ _ Hx') as Ax. pose proof (chunk_advance y' sy' [] ltac:(by rewrite app_nil_r)) as Ay.
    destruct (IH _ _ _ _ _ _ _ _ Ax Hxs' Ay Hys') as (r&Hr&Hv).
    + constructor; [|done]. unfold item_ok. simpl. lia.
    + constructor; [|done]. unfold item_ok. simpl. lia.
    + lia.
    + unfold ne at 2. rewrite (chunk_empty _ _ Ay). cbn. unfold ne. case_match; lia.
    + exists r. split; [done|]. intros H. rewrite <- app_assoc. destruct (Hv H); [left|right]; by apply prefix_app.
  - apply starts_with_iff in E2 as (q&->). rewrite orb_true_r. cbn [negb]. rewrite blen_app in *.
    replace (N.min (blen sx') (blen sx' + blen q)) with (blen sx') by lia. rewrite !add32_ok by lia. cbn [mbind res_bind].
    pose proof (chunk_advance _ _ _ Hy') as Ay. pose proof (chunk_advance x' sx' [] ltac:(by rewrite app_nil_r)) as Ax.
    destruct (IH _ _ _ _ _ _ _ _ Ax Hxs' Ay Hys') as (r&Hr&Hv).
    + constructor; [|done]. unfold item_ok. simpl. lia.
    + constructor; [|done]. unfold item_ok. simpl. lia.
    + lia.
    + unfold ne at 1. rewrite (chunk_empty _ _ Ax). cbn. unfold ne. case_match; lia.
    + exists r. split; [done|]. intros H. rewrite <- app_assoc. destruct (Hv H); [left|right]; by apply prefix_app.
  - rewrite orb_false_l. cbn [negb]. eexists. split; [done|]. done.
Qed.
Lemma zip_texts_any xs ys cs ds :
  mapM chunk_text xs = Ok cs -> mapM chunk_text ys = Ok ds -> Forall item_ok xs -> Forall item_ok ys ->
  exists r, zip_texts xs ys = Ok r /\ (verdict r = true -> sconcat cs `prefix_of` sconcat ds \/ sconcat ds `prefix_of` sconcat cs).
Proof.
  intros Hx Hy Ox Oy. destruct xs as [|x xs].
  { injection Hx as <-. eexists. split; [done|]. intros _. left. apply prefix_nil. }
  destruct (mapM_cons_ok _ _ _ Hx) as (sx&cs'&->&Hsx&Hxs). destruct ys as [|y ys].
  { injection Hy as <-. eexists. split; [done|]. intros _. right. apply prefix_nil. }
  destruct (mapM_cons_ok _ _ _ Hy) as (sy&ds'&->&Hsy&Hys). cbn [zip_texts].
  apply zip_loop_any; try done; [lia|]. unfold ne. repeat case_match; lia.
Qed.
Lemma stale_eqb root1 root2 a1 b1 a2 b2 c1 c2 y1 y2 : wfg root1 -> coherent root1 -> wfg root2 -> coherent root2 ->
  cin root1 c1 -> cin root2 c2 -> (a1 <= b1)%N -> (a2 <= b2)%N -> clamped c1 a1 b1 = Ok y1 -> clamped c2 a2 b2 = Ok y2 ->
  exists b, st_eqb (ST c1 (TR a1 b1)) (ST c2 (TR a2 b2)) = Ok b /\
    (blen y1 = blen y2 -> b = (b1 - a1 =? b2 - a2)%N && bool_decide (y1 = y2)) /\
    (b = true -> (b1 - a1 = b2 - a2)%N /\ (y1 `prefix_of` y2 \/ y2 `prefix_of` y1)).
Proof.
  intros W1 C1 W2 C2 Hc1 Hc2 L1 L2 H1 H2. unfold st_eqb. cbn [st_range]. unfold range_len. cbn [rstart rend].
  destruct (N.eqb_spec (b1 - a1) (b2 - a2)) as [Hl|Hl]; cbn [negb]; [|by eexists].
  destruct (stale_items root1 W1 C1 a1 b1 c1 Hc1 L1) as (its&Hi&Ho&Hm). destruct (stale_items root2 W2 C2 a2 b2 c2 Hc2 L2) as (its2&Hi2&Ho2&Hm2).
  rewrite Hi, Hi2. cbn [mbind res_bind]. rewrite H1 in Hm. rewrite H2 in Hm2.
  destruct (mapM chunk_text its) as [cs|e] eqn:Ec; [|done]. injection Hm as <-.
  destruct (mapM chunk_text its2) as [ds|e] eqn:Ed; [|done]. injection Hm2 as <-.
  destruct (zip_texts_any _ _ _ _ Ec Ed Ho Ho2) as ([[mm l] r]&Hz&Hv). rewrite Hz. cbn [mbind res_bind]. eexists. split; [done|]. split; [|by intros H; split; [|apply Hv]].
  intros Hb. destruct (zip_texts_ok _ _ _ _ Ec Ed Ho Ho2 Hb) as (r'&Hz'&Hv'). rewrite Hz in Hz'. injection Hz' as <-. by rewrite <- Hv'.
Qed.
(** [text] and [slice] *)
Section make.
Context (T : list (bool * tree)) (G : list (option tree)) (K : list nat).
Context (n : nat) (m : bool) (root : green) (HT : T !! n = Some (m, erase root)) (Hwf : wfg root).
Local Notation tr := (tracks T G K).
(** proof device, no counterpart in the code *)
Definition Rtext (b : stext) (a : ptext) (F : rs) : Prop := pt_range a = st_range b /\ F = [(pt_node a, (n, c_path (st_node b)))].
Lemma tr_text s c F : cin root c -> (s, (n, c_path c)) ∈ F -> tr F (p_text s) (st_new c) (kept F Rtext).
Proof using HT Hwf.
  intros Hc Hin. unfold p_text, st_new. rewrite (look_trange m root Hwf c Hc). cbn [mbind res_bind]. eapply tr_clone; [exact Hin|]. intros s'.
  eapply (tr_look T G K n m root HT); [exact Hc|left|]. eapply tr_ret; [reflexivity|]. by exists [(s', (n, c_path c))].
Qed.
Lemma tr_slice pr t rs re c F : cin root c -> (pt_node t, (n, c_path c)) ∈ F ->
  tr F (p_slice pr t rs re) (st_slice pr (ST c (pt_range t)) rs re) (kept F Rtext).
Proof.
  intros Hc Hin. unfold p_slice, st_slice, st_len. cbn [st_range st_node]. apply tr_assert. intros _. cbv zeta. apply tr_lift. intros x _. apply tr_lift. intros y _.
  apply tr_assert. intros _. apply tr_assert. intros _. eapply tr_clone; [exact Hin|]. intros s'. eapply tr_ret; [reflexivity|]. by exists [(s', (n, c_path c))].
Qed.
End make.

(** ** Running them *)
(** [p out] writes [s] after [out] as [writes] says, and leaves no handles *)
Definition prints (env : henv) (prog : list op) (st : sst) (sink : str -> str -> option nat) (p : str -> script (bool * str)) (s : str) : Prop :=
  exists f, writes sink f s /\ forall out r, f out = Ok r -> outcome env prog st (p out) (fun a F => a = r /\ F = []).
Lemma held_two st s1 h1 s2 h2 : s1 <> s2 -> s_handles st !! s1 = Some (Some h1) -> s_handles st !! s2 = Some (Some h2) -> exists L, held st ≡ₚ [(s1, h1); (s2, h2)] ++ L.
Proof.
  intros Hne H1%elem_of_held H2%elem_of_held. apply elem_of_Permutation in H1 as [L1 H1]. rewrite H1 in H2. apply elem_of_cons in H2 as [E|H2]; [congruence|].
  apply elem_of_Permutation in H2 as [L2 H2]. exists L2. by rewrite H1, H2.
Qed.
