(** * haiku/_src/dot.py: tracing to a graph and rendering it *)
From Coq Require Import String Ascii NArith ZArith List Bool.
From Verif Require Import ModelStr.
Import ListNotations.
Local Open Scope string_scope.

(** ** What a run of the traced function does
    Values are the identities ([id]) of the Python objects. [Op]: a primitive with its inputs, first and other outputs (dot.py:203-214; a
    primitive without outputs fails at [outputs[0]] and is left out). [Sub]: a hooked module method (dot.py:145-153) or a call primitive
    such as jit or pmap (dot.py:216-225), with what happens inside. Custom derivative rules are inlined (227-236). *)
Inductive item :=
| Op (title : string) (ins : list N) (out : N) (more : list N)
| Sub (title : string) (body : list item).

(** [Graph], [Node], [Edge] (dot.py:37-51). *)
Record node := Node { n_title : string; n_out : N; n_more : list N }.
Inductive graph := Graph (title : string) (nodes : list node) (edges : list (N * N)) (subs : list graph).

(** [graph_stack] during the trace. A call primitive appends its graph to the parent before running the body and a method after it; the
    parent gets nothing in between, so appending after is the same. *)
Fixpoint run (i : item) (stack : list graph) : list graph :=
  match i with
  | Op title ins out more =>
      match stack with
      | Graph t n e s :: rest => Graph t (n ++ [Node title out more]) (e ++ map (fun a => (a, out)) ins) s :: rest
      | [] => []
      end
  | Sub title body =>
      match fold_left (fun st j => run j st) body (Graph title [] [] [] :: stack) with
      | g :: Graph t n e s :: rest => Graph t n e (s ++ [g]) :: rest
      | other => other
      end
  end%list.
(** [to_graph] (dot.py:135-163). *)
Definition to_graph (title : string) (body : list item) : graph :=
  match fold_left (fun st j => run j st) body [Graph title [] [] []] with g :: _ => g | [] => Graph title [] [] [] end.

(** ** Text *)
(** [html.escape] (dot.py:247-248). *)
Definition escape_char (c : ascii) : string :=
  if Ascii.eqb c "&" then "&amp;" else if Ascii.eqb c "<" then "&lt;" else if Ascii.eqb c ">" then "&gt;"
  else if Ascii.eqb c """" then "&quot;" else if Ascii.eqb c "'" then "&#x27;" else String c "".
Fixpoint escape (s : string) : string := match s with EmptyString => "" | String c s => escape_char c ++ escape s end.
(** [format_path] (dot.py:268-277); the elements of the path as text. *)
Definition format_path (is_tuple : bool) (path : list string) : string :=
  if is_tuple then
    match path with
    | [] => "" (* a tuple has no empty path *)
    | p :: rest => "output[" ++ p ++ "]" ++ match rest with [] => "" | _ => ": " ++ String.concat "/" rest end
    end
  else "output" ++ match path with [] => "" | _ => ": " ++ String.concat "/" path end.
(** The label of an argument without the type (dot.py:361-364, 370-371): only the first element of the path is escaped. *)
Definition arg_label (path : list string) (i : nat) : string :=
  (if Nat.eqb i 0 then "" else "<b>(reuse)</b><br/>") ++
  match path with
  | [] => "" (* args is a tuple *)
  | p :: rest => "<b>args[" ++ escape p ++ "]" ++ match rest with [] => "" | _ => ": " ++ String.concat "/" rest end ++ "</b>"
  end.

(** ** Lines of the output *)
Inductive source := FromArg (a : N) (i : nat) | From (a : N).
(** The name used in the file: [f'{a}{i}'] or [f'{a}'] (dot.py:339-345, 375). *)
Definition source_name (s : source) : string :=
  match s with FromArg a i => str_of_N a ++ str_of_N (N.of_nat i) | From a => str_of_N a end.
Inductive line :=
| LNode (id : N) (title : string) (outs : list N) (output_name : option string)
| LBegin (title : string) (depth : Z) | LEnd
| LEdge (src : source) (dst : N)
| LArg (a : N) (i : nat) (label : string)
| LCapture (a : N).

(** [_max_depth] (dot.py:252-256). *)
Fixpoint max_depth (g : graph) : Z :=
  match g with
  | Graph _ _ _ [] => 1
  | Graph _ _ _ subs => 1 + fold_right Z.max 0 (map max_depth subs)
  end%Z.

Section Render.
Variables (args outputs : list (list string * N)) (is_tuple : bool).
(** [args]: the leaves with their paths ([None] has no node and is not a leaf); [outputs] likewise. *)
Definition is_arg (a : N) : bool := existsb (N.eqb a) (map snd args).
(** [outname]: of an object returned several times the last path counts (dot.py:286, 309-311). *)
Definition outname (a : N) : option string :=
  option_map (fun p => format_path is_tuple (fst p)) (find (fun p => N.eqb a (snd p)) (rev outputs)).
(** The local variables of [_graph_to_dot]: [lines], [op_outids], [captures], and for [argid_usecount] the argument ids counted. *)
Record st := St { lines : list line; op_outs : list N; captures : list N; uses : list N }.
Definition count (a : N) (l : list N) : nat := List.length (filter (N.eqb a) l).
(** dot.py:303-327. *)
Definition render_node (s : st) (n : node) : st :=
  let outs := n_out n :: n_more n in
  St (lines s ++ [LNode (n_out n) (n_title n) outs (outname (n_out n))]) (op_outs s ++ outs) (captures s) (uses s).
(** dot.py:335-346. *)
Definition render_edge (s : st) (e : N * N) : st :=
  let '(a, b) := e in
  let captures' := if is_arg a || existsb (N.eqb a) (op_outs s) then captures s else (captures s ++ [a])%list in
  if is_arg a then St (lines s ++ [LEdge (FromArg a (count a (uses s))) b]) (op_outs s) captures' (uses s ++ [a])
  else St (lines s ++ [LEdge (From a) b]) (op_outs s) captures' (uses s).
Definition add_line (s : st) (l : line) : st := St (lines s ++ [l]) (op_outs s) (captures s) (uses s).
(** [render_graph] (dot.py:288-346). *)
Fixpoint render (top : bool) (depth : Z) (g : graph) (s : st) : st :=
  match g with
  | Graph title nodes edges subs =>
      let s := if top then s else add_line s (LBegin title depth) in
      let s := fold_left render_node nodes s in
      let s := fold_left (fun s' sub => render false (depth - 1)%Z sub s') subs s in
      let s := if top then s else add_line s LEnd in
      fold_left render_edge edges s
  end.
(** dot.py:351-381: the arguments, every use its own node. An unused argument has a count of 0. *)
Definition arg_lines (s : st) : list line :=
  flat_map (fun p => map (fun i => LArg (snd p) i (arg_label (fst p) i)) (seq 0 (count (snd p) (uses s)))) args.
(** [_graph_to_dot] (dot.py:263-430) without the style sheet. *)
Definition graph_to_dot (g : graph) : list line :=
  let s := render true (max_depth g) g (St [] [] [] []) in
  (lines s ++ arg_lines s ++ map LCapture (captures s))%list.
End Render.
