(** * [Debug] of green elements (src/green/node.rs:80-95, src/green/token.rs:60-74,
    derived: src/green.rs:19, src/utility_types.rs:7)

    [fmt::Formatter::debug_struct] and [debug_tuple] (std) as the pieces of text they write, one after
    the other, to the writer of Fmt.v; with the [alternate] flag ([{:#?}]) through std's [PadAdapter].
    Simplifications: no other options than [alternate] (width, hexadecimal) are given; the
    [Debug] of [str] is a parameter that gives one piece of text, as in Fmt.v. *)
Require Import Ascii String.
From Verif Require Export Fmt WrapGreen.

(** literals: the characters of an ASCII string *)
(** the names at green/node.rs:82-85, green/token.rs:62-64, green.rs:20, utility_types.rs:8-11 *)
Definition lit (s : string) : str := map N_of_ascii (list_ascii_of_string s).

(** a value's [Debug]: the pieces it writes, with or without [alternate] *)
(** std [fmt::Debug], derived or implemented at green/node.rs:80-95, green/token.rs:60-74 *)
Definition dbg : Type := bool -> list str.
(** std [str::split_inclusive('\n')], in [PadAdapter::write_str]; under green/node.rs:82-86 *)
Fixpoint split_incl (s : str) : list str :=
  match s with
  | [] => []
  | c :: s' => if (c =? 10)%N then [c] :: split_incl s' else match split_incl s' with [] => [[c]] | l :: ls => (c :: l) :: ls end
  end.
(** std [PadAdapter::write_str], the loop over the lines; [nl] is [on_newline]; under green/node.rs:82-86 *)
Fixpoint pad_lines (nl : bool) (ls : list str) : list str * bool :=
  match ls with
  | [] => ([], nl)
  | l :: ls' =>
      let '(out, nl') := pad_lines (match last l with Some c => (c =? 10)%N | None => false end) ls' in
      ((if nl then [[32; 32; 32; 32]%N] else []) ++ l :: out, nl')
  end.
(** std [PadAdapter]: what reaches the writer below when the pieces are written one after the other; under green/node.rs:82-86 *)
Fixpoint pad_pieces (nl : bool) (ps : list str) : list str :=
  match ps with
  | [] => []
  | p :: ps' => let '(out, nl') := pad_lines nl (split_incl p) in out ++ pad_pieces nl' ps'
  end.
(** std [DebugStruct::field], [DebugStruct::finish], called at green/node.rs:83-86, green/token.rs:63-65; [first] is [!has_fields] *)
Fixpoint struct_fields (first : bool) (fs : list (str * dbg)) (alt : bool) : list str :=
  match fs with
  | [] => if first then [] else [if alt then lit "}" else lit " }"]
  | (name, v) :: fs' =>
      (if alt then (if first then [lit " {" ++ [10]%N] else []) ++ pad_pieces true ([name; lit ": "] ++ v true ++ [lit "," ++ [10]%N])
       else [if first then lit " { " else lit ", "; name; lit ": "] ++ v false) ++
      struct_fields false fs' alt
  end.
(** std [Formatter::debug_struct], called at green/node.rs:82, green/token.rs:62 *)
Definition debug_struct (name : str) (fs : list (str * dbg)) : dbg := fun alt => name :: struct_fields true fs alt.
(** std [Formatter::debug_tuple] with one field and a name, from the derives at green.rs:19, utility_types.rs:7 *)
Definition debug_tuple1 (name : str) (v : dbg) : dbg := fun alt =>
  if alt then [name; lit "(" ++ [10]%N] ++ pad_pieces true (v true ++ [lit "," ++ [10]%N]) ++ [lit ")"]
  else [name; lit "("] ++ v false ++ [lit ")"].
(** std [Debug] of [u16] and [usize]; of [TextSize] in the text-size crate: [write!(f, "{}", self.raw)] *)
Definition dbg_num (n : N) : dbg := fun _ => [dec n].
(** green.rs:19-20 [SyntaxKind], derived *)
Definition dbg_kind (k : kind) : dbg := debug_tuple1 (lit "SyntaxKind") (dbg_num k).

Section dbg.
  Variables (sink : str -> str -> option nat) (sdbg : str -> str).
  (** green/node.rs:80-95 [Debug for GreenNodeData] and for [GreenNode], green/token.rs:60-74 [Debug for GreenTokenData] and
      for [GreenToken].  [text_len] of a node is the stored one, node.rs:132-134 *)
  Definition dbg_green (g : green) : dbg :=
    match g with
    | GNode _ k tl cs => debug_struct (lit "GreenNode") [(lit "kind", dbg_kind k); (lit "text_len", dbg_num tl); (lit "n_children", dbg_num (N.of_nat (List.length cs)))]
    | GTok _ k s => debug_struct (lit "GreenToken") [(lit "kind", dbg_kind k); (lit "text", fun _ => [sdbg s])]
    end.
  (** utility_types.rs:7-11 [NodeOrToken], derived, for [GreenElement] *)
  Definition dbg_green_element (g : green) : dbg := debug_tuple1 (if gis_node g then lit "Node" else lit "Token") (dbg_green g).
  (** green/node.rs:81-87, 91-94, green/token.rs:61-66, 70-73: what is written where *)
  Definition fmt_green (alt : bool) (g : green) (out : str) : fres := wpieces sink (dbg_green g alt) out.
  (** utility_types.rs:7 *)
  Definition fmt_green_element (alt : bool) (g : green) (out : str) : fres := wpieces sink (dbg_green_element g alt) out.
End dbg.

(** ** Specification *)
(** specification: lines with their depths, four spaces for each *)
Definition line_up (ls : list (nat * str)) : str :=
  match ls with
  | [] => []
  | l :: ls => let one l := concat (replicate l.1 (lit "    ")) ++ l.2 in one l ++ concat (map (fun l => [10]%N ++ one l) ls)
  end.
(** specification: a node is shown by its kind, the length of its text and the number of its children *)
Definition node_line (k : kind) (len : N) (n : nat) : str :=
  lit "GreenNode { kind: SyntaxKind(" ++ dec k ++ lit "), text_len: " ++ dec len ++ lit ", n_children: " ++ dec (N.of_nat n) ++ lit " }".
(** specification: the same over several lines *)
Definition node_lines (k : kind) (len : N) (n : nat) : list (nat * str) :=
  [(0, lit "GreenNode {"); (1, lit "kind: SyntaxKind("); (2, dec k ++ lit ","); (1, lit "),");
   (1, lit "text_len: " ++ dec len ++ lit ","); (1, lit "n_children: " ++ dec (N.of_nat n) ++ lit ","); (0, lit "}")].
(** specification: a token is shown by its kind and its text *)
Definition token_line (k : kind) (shown : str) : str :=
  lit "GreenToken { kind: SyntaxKind(" ++ dec k ++ lit "), text: " ++ shown ++ lit " }".
(** specification: the same over several lines *)
Definition token_lines (k : kind) (shown : str) : list (nat * str) :=
  [(0, lit "GreenToken {"); (1, lit "kind: SyntaxKind("); (2, dec k ++ lit ","); (1, lit "),");
   (1, lit "text: " ++ shown ++ lit ","); (0, lit "}")].
(** specification: lines inside the parentheses of a tuple *)
Definition in_tuple (name : str) (ls : list (nat * str)) : list (nat * str) :=
  (0, name ++ lit "(") :: removelast (map (fun l => (S l.1, l.2)) ls) ++
  match last ls with Some l => [(S l.1, l.2 ++ lit ",")] | None => [] end ++ [(0, lit ")")].
(** the [Debug] of a string shows something, on one line (std escapes newlines and adds quotes) *)
(** specification of std's [Debug for str], used at green/token.rs:64 *)
Definition one_line (sdbg : str -> str) : Prop := forall s, sdbg s <> [] /\ 10%N ∉ sdbg s.
(** specification: what [Debug] shows of a green element with this tree and this length *)
Definition green_line (sdbg : str -> str) (t : tree) (len : N) : str :=
  match t with Node k cs => node_line k len (length cs) | Token k s => token_line k (sdbg s) end.
(** specification: the same over several lines *)
Definition green_lines (sdbg : str -> str) (t : tree) (len : N) : list (nat * str) :=
  match t with Node k cs => node_lines k len (length cs) | Token k s => token_lines k (sdbg s) end.
(** specification: the name of the variant of [NodeOrToken], utility_types.rs:8-11 *)
Definition variant (t : tree) : str := match t with Node _ _ => lit "Node" | Token _ _ => lit "Token" end.
