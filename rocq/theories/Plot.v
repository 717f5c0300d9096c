(** Plot.v — model of the drawing methods of /repo/py_fcm/fcm.py (lines 630-665) and of
    the name lists of /repo/py_fcm/utils/functions.py (FN).

    Simplifications: a picture is what is handed to the drawing library: for
    plot_execution the lines (the ordinates; the abscissae are range(end), the axis
    is always [0, end, -1.1, 1.1]) and the file name; for plot_topology the graph and
    the file name.  Random colours and the files themselves are left out. *)
From Verif Require Import Base Num Functions Fcm.

Section Plot.
Context {F : Type} {N : Num F}.

(** lines 633-638: the values of a history that are drawn *)
Definition drawn_part (limit : Z) (h : list F) : list F :=
  let n := Z.of_nat (length h) in
  let stop := if ((limit <? n) && (0 <? limit))%Z%bool then limit else n in
  firstn (Z.to_nat stop) h.
(** lines 632-652: one line per selected concept, with its name *)
Definition plot_lines (limit : Z) (node_type : string) (s : fcm F) : res (list (string * list F)) :=
  rfold (fun acc ch =>
    let line := (fst ch, drawn_part limit (snd ch)) in
    (if String.eqb node_type "target" then
       n <- dget_exn (m_topo s) (fst ch) ;;
       t <- oget (nd_type n) "type of node" ;;
       Ok (if String.eqb t TYPE_DECISION || String.eqb t TYPE_REGRESOR then acc ++ [line] else acc)
     else if String.eqb node_type "all" then Ok (acc ++ [line])
     else
       n <- dget_exn (m_topo s) (fst ch) ;;
       t <- oget (nd_type n) "type of node" ;;
       Ok (if String.eqb t node_type then acc ++ [line] else acc))%res) (m_exec s) [].
(** lines 630-655 *)
Definition plot_execution (fig_name : string) (limit : Z) (node_type plot_dir : string) (s : fcm F)
  : res (string * list (string * list F)) :=
  (lines <- plot_lines limit node_type s ;;
   Ok (append plot_dir (append "/" (append fig_name ".png")), lines))%res.

(** lines 657-665: an undirected networkx graph without multiple edges; add_edge
    adds missing end points *)
Record graph : Type := mkGraph { g_nodes : list string; g_edges : list (string * string) }.
Definition same_edge (e f : string * string) : bool :=
  (String.eqb (fst e) (fst f) && String.eqb (snd e) (snd f)) || (String.eqb (fst e) (snd f) && String.eqb (snd e) (fst f)).
Definition add_graph_node (v : string) (g : graph) : graph :=
  if str_mem v (g_nodes g) then g else mkGraph (g_nodes g ++ [v]) (g_edges g).
Definition add_edge (g : graph) (e : string * string) : graph :=
  let g := add_graph_node (snd e) (add_graph_node (fst e) g) in
  if existsb (same_edge e) (g_edges g) then g else mkGraph (g_nodes g) (g_edges g ++ [e]).
Definition plot_topology (path fig_name : string) (s : fcm F) : string * graph :=
  (append path (append fig_name ".png"),
   fold_left (fun g cn => fold_left (fun g a => add_edge g (fst cn, fst a)) (nd_arcs (snd cn)) g)
     (m_topo s) (mkGraph (dkeys (m_topo s)) [])).
End Plot.

(** FN lines 385-403 *)
Definition activation_function_names : list string :=
  ["biestate"; "threestate"; "saturation"; "tan_hip"; "sigmoid"; "sigmoid_hip"; "relm"; "gceq"; "lceq"; "proportion"].
(** FN lines 453-464 *)
Definition excitation_function_names : list string := ["KOSKO"; "PAPAGEORGIUS"; "MEAN"].
(** FN lines 512-523 *)
Definition decision_function_names : list string := ["LAST"; "MEAN"; "EXITED"].
