(** * [Debug] of [cursor::SyntaxNode] (src/cursor.rs:1295-1302) on any tree a client can hold *)
Require Import String.
From Verif Require Export RawFmt ShowFacts.
Local Open Scope nat_scope.

(** cursor.rs:1295-1302; for handles on nodes only, a token has the derived [Debug], which is not modelled.  [kind] and
    [text_range] are looked up together *)
Definition p_debug_raw (sink : str -> str -> option nat) (alternate : bool) (s : nat) (out : str) : script (bool * str) :=
  l ← p_look s;
  p_lift (wpieces sink (debug_struct (lit "SyntaxNode") [(lit "kind", dbg_kind (l_kind l)); (lit "text_range", dbg_range (l_trange l))] alternate) out).

Section facts.
Context (T : list (bool * tree)) (G : list (option tree)) (K : list nat).
Context (n : nat) (m : bool) (root : green) (HT : T !! n = Some (m, erase root)) (Hwf : wfg root).
Lemma tr_debug_raw sink alternate s c out F : cin root c -> (s, (n, c_path c)) ∈ F ->
  tracks T G K F (p_debug_raw sink alternate s out) (fmt_raw_node c_text_range sink alternate c out) (kept F (fun b a F' => a = b /\ F' = [])).
Proof using HT Hwf.
  intros Hc Hin. unfold p_debug_raw. eapply (tr_look T G K n m root HT); [exact Hc|exact Hin|].
  unfold fmt_raw_node. rewrite (look_trange m root Hwf c Hc). cbn [mbind res_bind]. rewrite l_kind_look.
  apply tr_lift_ret. intros a _. by exists [].
Qed.
End facts.
