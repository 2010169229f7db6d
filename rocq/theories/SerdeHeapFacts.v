(** * Serialisation on any tree does what it does on immutable trees *)
From Verif Require Export SerdeHeap SerdeFacts ShowFacts ScriptRun.
Local Open Scope nat_scope.

Section facts.
Context (T : list (bool * tree)) (G : list (option tree)) (K : list nat).
Context (n : nat) (m : bool) (root : green) (HT : T !! n = Some (m, erase root)) (Hwf : wfg root) (Hco : coherent root).
Local Notation tr := (tracks T G K).
Local Notation own c s := (s, (n, c_path c)).
Local Notation look_of := (look_of m root).
(** the program gives what the function gives, and the handles are as before *)
Local Notation meth F p r := (tr F p r (kept F (fun b a F' => a = b /\ F' = []))).
Context (fails : list scall -> scall -> bool) (kfr : kind -> kind) (kdbg : kind -> str).

Lemma tr_sseq F (pa pb : pser) (a b : list scall -> Serde.sres) log : meth F (pa log) (a log) -> (forall log, meth F (pb log) (b log)) ->
  meth F (p_sseq pa pb log) (sseq a b log).
Proof.
  intros Ha Hb. unfold p_sseq, sseq. eapply tr_call; [exact Ha|by rewrite app_nil_r|]. intros [ok l] [ok' l'] F' (F1&HF&[= <- <-]&->). rewrite app_nil_r. simpl in HF.
  eapply tracks_perm; [symmetry; exact HF|]. destruct ok; [apply Hb|]. eapply tr_ret; [reflexivity|]. by exists [].
Qed.
Lemma tr_scalls F l log : meth F (p_scalls fails l log) (scalls fails l log).
Proof. apply tr_lift_ret. intros a _. by exists []. Qed.
Lemma sseq_assoc (a b c : list scall -> Serde.sres) log : sseq (sseq a b) c log = sseq a (sseq b c) log.
Proof. unfold sseq. destruct (a log) as [[[] l]|]; done. Qed.
Lemma scalls_app l k log : scalls fails (l ++ k) log = sseq (scalls fails l) (scalls fails k) log.
Proof.
  revert log. induction l as [|x l IH]; intros log; [done|]. cbn [app scalls]. rewrite sseq_assoc.
  unfold scall1, sseq at 1 2. cbn [mbind res_bind]. destruct (negb _); [|done]. apply IH.
Qed.
Lemma ser_head_look c log : cin root c -> ser_head fails kfr kdbg c log =
  sseq (scalls fails [SMap (Some 3)]) (sseq (scalls fails [SKey k_kind; SDisplay (kdbg (kfr (l_kind (look_of c))))])
    (scalls fails [SKey k_range; STuple 2; SU32 (l_range (look_of c)).1; SU32 (l_range (look_of c)).2; STupleEnd])) log.
Proof using Hwf.
  intros Hc. unfold ser_head. rewrite (look_trange m root Hwf c Hc). cbn [mbind res_bind]. unfold l_trange. cbn [rstart rend].
  rewrite (l_kind_look m root). rewrite <- !sseq_assoc.
  transitivity (scalls fails ([SMap (Some 3); SKey k_kind; SDisplay (kdbg (kfr (c_kind c))); SKey k_range] ++
    [STuple 2; SU32 (l_range (look_of c)).1; SU32 (l_range (look_of c)).2; STupleEnd]) log).
  { by rewrite scalls_app. }
  transitivity (scalls fails (([SMap (Some 3)] ++ [SKey k_kind; SDisplay (kdbg (kfr (c_kind c)))]) ++
    [SKey k_range; STuple 2; SU32 (l_range (look_of c)).1; SU32 (l_range (look_of c)).2; STupleEnd]) log); [done|].
  rewrite scalls_app. unfold sseq at 1 2. by rewrite scalls_app.
Qed.
Lemma tr_ser_head s c F log : cin root c -> own c s ∈ F -> meth F (p_ser_head fails kfr kdbg s log) (ser_head fails kfr kdbg c log).
Proof using HT Hwf.
  intros Hc Hin. rewrite (ser_head_look c log Hc). unfold p_ser_head. apply tr_sseq; [apply tr_scalls|]. intros log1.
  apply tr_sseq; [|intros log2]; (eapply (tr_look T G K n m root HT); [exact Hc|exact Hin|]; apply tr_scalls).
Qed.
Lemma tr_ser_kids (pf : nat -> pser) (f : cursor -> list scall -> Serde.sres) : forall l fuel cit it F log, Rkids n root true cit it F -> yields element_children_next cit l -> length l < fuel ->
  (forall d s F log, d ∈ l -> cin root d -> own d s ∈ F -> meth F (pf s log) (f d log)) ->
  tr F (p_ser_kids pf fuel it log) (sall (map f l) log) (fun b a F' => a = b /\ F' = []).
Proof using HT Hwf.
  clear fails kfr kdbg. induction l as [|c l IH]; intros fuel cit it F log Hit Hy Hf Hpf; (destruct fuel as [|fuel]; [lia|]); cbn [p_ser_kids map sall].
  - inversion Hy as [? cit' E1 E2|]; subst. pose proof (tr_eqn _ _ _ _ _ _ _ (tr_kids_next T G K n m root HT Hwf true cit it F Hit)) as Hn. cbn [kids_next] in Hn. rewrite E1 in Hn.
    change (@Ok (bool * list scall) (true, log)) with (Ok (@None cursor, cit') ≫= fun _ => @Ok (bool * list scall) (true, log)).
    eapply tr_call; [exact Hn|by rewrite app_nil_r|]. intros [a it'] [o cit''] F' ([= <- <-]&F1&F2&HF&HR&Hit'). rewrite app_nil_r.
    cbn [fst snd] in *. unfold Ropt in HR. destruct a as [|]; [done|]. subst F1. eapply (tr_kids_drop_k T G K n root true); [exact Hit'|rewrite HF; by rewrite app_nil_r|]. by eapply tr_ret.
  - inversion Hy as [|? ? cit' ? E1 Hy']; subst. pose proof (tr_eqn _ _ _ _ _ _ _ (tr_kids_next T G K n m root HT Hwf true cit it F Hit)) as Hn. cbn [kids_next] in Hn. rewrite E1 in Hn.
    match goal with |- tracks _ _ _ _ _ ?r _ => change r with (Ok (Some c, cit') ≫= fun _ => r) end.
    eapply tr_call; [exact Hn|by rewrite app_nil_r|]. intros [a it'] [o cit''] F' ([= <- <-]&F1&F2&HF&HR&Hit').
    rewrite app_nil_r. cbn [fst snd] in *. unfold Ropt in HR. destruct a as [s|]; [|done]. pose proof HR as [[Hc ->] _].
    unfold sseq. eapply tr_call; [apply (Hpf c s F' log); [left|exact Hc|rewrite HF; left]|by rewrite app_nil_r|].
    intros [ok lg] [ok' lg'] F3 (F4&HF3&[= <- <-]&->). rewrite app_nil_r. simpl in HF3.
    eapply tr_drop; [rewrite HF3; exact HF|]. destruct ok.
    + eapply IH; [exact Hit'|exact Hy'|simpl in Hf; lia|]. intros d s' F5 lg' Hd. apply Hpf. by right.
    + eapply (tr_kids_drop_k T G K n root true); [exact Hit'|by rewrite app_nil_r|]. by eapply tr_ret.
Qed.
Lemma tr_ser_element : forall fuel s c F log, cin root c -> own c s ∈ F ->
  meth F (p_ser_element fails kfr kdbg fuel s log) (ser_element fails kfr kdbg fuel c log).
Proof using HT Hwf.
  induction fuel as [|fuel IH]; intros s c F log Hc Hin; [by apply tr_err|]. cbn [p_ser_element ser_element].
  apply tr_sseq; [by apply tr_ser_head|]. intros log1. eapply (tr_look T G K n m root HT); [exact Hc|exact Hin|]. rewrite l_node_look. destruct (c_is_node c) eqn:En.
  - apply tr_sseq; [apply tr_scalls|]. intros log2. apply tr_sseq; [|intros log3; apply tr_scalls].
    eapply (tr_kids_new T G K n root true); [exact Hc|exact En|exact Hin|]. intros it F1 Hit.
    destruct (children_with_tokens_yields root Hwf (c_path c) c Hc) as (cs&Hy&Hat).
    assert (Hlen : length cs = length (gchildren (c_green c))).
    { rewrite sel_from_any, Nat.sub_0_r, length_erase_children in Hat. apply Forall2_length in Hat. by rewrite seq_length in Hat. }
    assert (Hcw : children_with_tokens c = Ok cs) by (eapply yields_collect; [exact Hy|lia]).
    rewrite Hcw. cbn [mbind res_bind]. apply tr_bind_ret. rewrite <- (res_bind_ret (sall _ _)).
    eapply tr_call; [|reflexivity|].
    + eapply tr_ser_kids; [exact Hit|exact Hy| |intros d s' F2 lg _ Hd Hin'; by apply IH].
      change (l_tree (look_of c)) with (erase (c_green c)). rewrite length_erase_children. lia.
    + intros a b F2 [-> ->]. eapply tr_ret; [reflexivity|]. by exists [].
  - rewrite (look_text m root). apply tr_scalls.
Qed.
Lemma tr_serialize s c F log : cin root c -> own c s ∈ F -> meth F (p_serialize fails kfr kdbg s log) (serialize fails kfr kdbg c log).
Proof using HT Hwf.
  intros Hc Hin. unfold p_serialize, serialize. eapply (tr_look T G K n m root HT); [exact Hc|exact Hin|].
  change (l_tree (look_of c)) with (erase (c_green c)). rewrite <- gsize_erase. by apply tr_ser_element.
Qed.
End facts.
