(** * DumpModel: the dump functions (osl_*_idump, osl_*_dump), the debugging output of the library

    What is written in the file is a text; the last argument of an idump function is the level of indentation.  Values
    as in ExtModel and ScopModel: NULL pointers are [None] or [ [] ], "%s" on NULL writes "(null)".  osl_int_print writes the number in a local
    buffer of OSL_MAX_STRING characters first.  The functions are those of
    source/{int,vector,relation,relation_list,strings,body,names,interface,generic,statement,scop}.c and source/extensions/*.c. *)
From Verif Require Import Base IntModel VectorModel RelationModel UtilModel StringsModel RelTextModel ExtModel ScopModel IrregModel.

(** ** Lines *)
(** "|\t" *)
Definition bar : str := [chr 124; c_tab].
(** for (j = 0; j < level; j++) fprintf(file, "|\t"); also source/extensions/annotation.c:181-185 osl_annotation_idump_indent and
    source/extensions/region.c:189-193 osl_region_idump_indent *)
Definition indent (level : Z) : str := concat (repeat bar (Z.to_nat level)).
(** The indentation, a text and the end of the line.  A line "A blank line" is [line (level + 2) []]: the C loops up to
    j <= level + 1. *)
Definition line (level : Z) (t : str) : str := indent level ++ t ++ [c_nl].
(** The nodes of a linked list, numbered; [sep] is what is written between two of them. *)
Definition nodes {A} (f : Z -> A -> res str) (sep : str) : Z -> list A -> res str :=
  fix go n l :=
    match l with
    | [] => Ok []
    | x :: tl => a <- f n x ;; b <- go (n + 1) tl ;; Ok (a ++ match tl with [] => [] | _ => sep end ++ b)
    end.
(** What starts the second and the next nodes: a line. *)
Definition next_title (n level : Z) (t : str) : str := if n =? 1 then [] else line level t.

Section DUMP.
Context {cfg : config}.

(** ** Numbers *)
(** source/int.c:105-122 osl_int_dump_precision *)
Definition osl_int_dump_precision (p : Z) : str :=
  if p =? PRECISION_SP then lit "32 bits"
  else if p =? PRECISION_DP then lit "64 bits"
  else if (p =? PRECISION_MP) && gmp cfg then lit "GMP"
  else lit "unknown precision " ++ print_Z p.
(** source/int.c:607-614 osl_int_print *)
Definition osl_int_print (p v : Z) : res str := t <- osl_int_sprint p v ;; buf_store t.

(** ** Vectors *)
(** source/vector.c:84-123 osl_vector_idump *)
Definition osl_vector_idump (v : option vector) (level : Z) : res str :=
  match v with
  | Some v =>
      cells <- cfor 0 (vsize v) (fun j s => x <- aget (vv v) j ;; t <- osl_int_print (vprec v) x ;; Ok (s ++ t ++ [c_sp])) [] ;;
      Ok (line level (lit "+-- osl_vector_t (" ++ osl_int_dump_precision (vprec v) ++ lit ")")
          ++ line (level + 1) (print_Z (vsize v))
          ++ line (level + 1) (lit "[ " ++ cells ++ lit "]")
          ++ line (level + 1) [])
  | None => Ok (line level (lit "+-- NULL vector") ++ line (level + 1) [])
  end.
(** source/vector.c:131-133 osl_vector_dump *)
Definition osl_vector_dump (v : option vector) : res str := osl_vector_idump v 0.

(** ** Relations *)
(** source/relation.c:158-162 osl_relation_print_type *)
Definition osl_relation_print_type (u : list relation) : str := osl_relation_sprint_type u.
(** "osl_relation_t (type, precision)" *)
Definition relation_title (r : relation) : str :=
  lit "osl_relation_t (" ++ osl_relation_print_type [r] ++ lit ", " ++ osl_int_dump_precision (rprec r) ++ lit ")".
(** source/relation.c:212-226: one row *)
Definition row_idump (r : relation) (i level : Z) : res str :=
  cells <- cfor 0 (ncols r) (fun j s => x <- mget (rm r) i j ;; t <- osl_int_print (rprec r) x ;; Ok (s ++ t ++ [c_sp])) [] ;;
  Ok (line (level + 1) (lit "[ " ++ cells ++ lit "]")).
(** source/relation.c:191-226: one part of the union *)
Definition part_idump (level n : Z) (r : relation) : res str :=
  t <- cfor 0 (nrows r) (fun i s => t <- row_idump r i level ;; Ok (s ++ t)) [] ;;
  Ok (next_title n level (lit "|   " ++ relation_title r)
      ++ line (level + 1) (print_spaced [nrows r; ncols r; nout r; nin r; nloc r; npar r])
      ++ t).
(** source/relation.c:174-245 osl_relation_idump *)
Definition osl_relation_idump (u : list relation) (level : Z) : res str :=
  t <- nodes (part_idump level) (line (level + 1) (lit "|") ++ line (level + 1) (lit "V")) 1 u ;;
  Ok (line level (match u with r :: _ => lit "+-- " ++ relation_title r | [] => lit "+-- NULL relation" end)
      ++ t ++ line (level + 1) []).
(** source/relation.c:254-256 osl_relation_dump *)
Definition osl_relation_dump (u : list relation) : res str := osl_relation_idump u 0.

(** source/relation_list.c:84-129 osl_relation_list_idump *)
Definition relation_list_node (level n : Z) (u : list relation) : res str :=
  t <- osl_relation_idump u (level + 1) ;;
  Ok (next_title n level (lit "|   osl_relation_list_t") ++ line (level + 2) [] ++ t).
Definition osl_relation_list_idump (l : list (list relation)) (level : Z) : res str :=
  t <- nodes (relation_list_node level) (line (level + 1) (lit "V")) 1 l ;;
  Ok (line level (match l with _ :: _ => lit "+-- osl_relation_list_t" | [] => lit "+-- NULL relation list" end)
      ++ t ++ line (level + 1) []).
(** source/relation_list.c:137-140 osl_relation_list_dump *)
Definition osl_relation_list_dump (l : list (list relation)) : res str := osl_relation_list_idump l 0.

(** ** Strings, bodies, names *)
(** source/strings.c:85-107 osl_strings_idump *)
Definition osl_strings_idump (s : option strings) (level : Z) : str :=
  line level (match s with
              | Some s => lit "+-- osl_strings_t:" ++ flat_map (fun x => c_sp :: x) (match s with Some l => l | None => [] end)
              | None => lit "+-- NULL strings"
              end)
  ++ line (level + 1) [].
(** source/strings.c:115-117 osl_strings_dump *)
Definition osl_strings_dump (s : option strings) : str := osl_strings_idump s 0.
(** source/body.c:85-113 osl_body_idump *)
Definition osl_body_idump (b : option body) (level : Z) : str :=
  match b with
  | Some b => line level (lit "+-- osl_body_t") ++ line (level + 2) []
              ++ osl_strings_idump (bo_iterators b) (level + 1) ++ osl_strings_idump (bo_expression b) (level + 1)
  | None => line level (lit "+-- NULL body")
  end ++ line (level + 1) [].
(** source/body.c:122-124 osl_body_dump *)
Definition osl_body_dump (b : option body) : str := osl_body_idump b 0.
(** source/names.c:83-114 osl_names_idump.  Simplification: the five lists are not NULL. *)
Definition osl_names_idump (x : option names) (level : Z) : str :=
  match x with
  | Some x => line level (lit "+-- osl_names_t") ++ line (level + 2) []
              ++ osl_strings_idump (Some (n_params x)) (level + 1) ++ osl_strings_idump (Some (n_iters x)) (level + 1)
              ++ osl_strings_idump (Some (n_scatt x)) (level + 1) ++ osl_strings_idump (Some (n_locals x)) (level + 1)
              ++ osl_strings_idump (Some (n_arrays x)) (level + 1)
  | None => line level (lit "+-- NULL names")
  end ++ line (level + 1) [].
(** source/names.c:122-124 osl_names_dump *)
Definition osl_names_dump (x : option names) : str := osl_names_idump x 0.

(** ** Interfaces *)
(** source/interface.c:100-144 osl_interface_idump.  "%s" on the NULL URI of the first interface writes "(null)", that of the next ones is
    written "(NULL)". *)
Definition interface_node (level n : Z) (i : interf) : res str :=
  Ok (next_title n level (lit "|   osl_interface_t: URI = " ++ match if_uri i with Some u => u | None => lit "(NULL)" end)).
Definition osl_interface_idump (l : list interf) (level : Z) : res str :=
  t <- nodes (interface_node level) (line (level + 2) [] ++ line (level + 1) (lit "V")) 1 l ;;
  Ok (line level (match l with i :: _ => lit "+-- osl_interface_t: URI = " ++ pr (if_uri i) | [] => lit "+-- NULL interface" end)
      ++ t ++ line (level + 1) []).
(** source/interface.c:152-155 osl_interface_dump *)
Definition osl_interface_dump (l : list interf) : res str := osl_interface_idump l 0.

(** ** Extensions *)
(** "%d, " *)
Definition comma (v : Z) : str := print_Z v ++ lit ", ".
(** source/extensions/arrays.c:87-123 osl_arrays_idump *)
Definition osl_arrays_idump (a : option arrays) (level : Z) : str :=
  match a with
  | Some a => line level (lit "+-- osl_arrays_t") ++ line (level + 1) (lit "nb_names: " ++ print_Z (zlength a))
              ++ flat_map (fun x => line (level + 1) (lit "id: " ++ print2 (fst x) ++ lit ", name: " ++ snd x)) a
  | None => line level (lit "+-- NULL arrays")
  end ++ line (level + 1) [].
(** source/extensions/arrays.c:131-133 osl_arrays_dump *)
Definition osl_arrays_dump (a : option arrays) : str := osl_arrays_idump a 0.
(** The newlines of a text are replaced by spaces. *)
Definition flatten (t : str) : str := map (fun c => if ceqb c c_nl then c_sp else c) t.
(** source/extensions/clay.c:85-118 osl_clay_idump: strlen is called on the copy, NULL when the script is NULL. *)
Definition osl_clay_idump (c : option clay) (level : Z) : res str :=
  match c with
  | Some (Some t) => Ok (line level (lit "+-- osl_clay_t") ++ line (level + 1) (lit "script: " ++ flatten t) ++ line (level + 1) [])
  | Some None => UB
  | None => Ok (line level (lit "+-- NULL clay") ++ line (level + 1) [])
  end.
(** source/extensions/clay.c:126-128 osl_clay_dump *)
Definition osl_clay_dump (c : option clay) : res str := osl_clay_idump c 0.
(** source/extensions/comment.c:85-119 osl_comment_idump *)
Definition osl_comment_idump (c : option comment) (level : Z) : res str :=
  match c with
  | Some (Some t) => Ok (line level (lit "+-- osl_comment_t") ++ line (level + 1) (lit "comment: " ++ flatten t) ++ line (level + 1) [])
  | Some None => UB
  | None => Ok (line level (lit "+-- NULL comment") ++ line (level + 1) [])
  end.
(** source/extensions/comment.c:127-129 osl_comment_dump *)
Definition osl_comment_dump (c : option comment) : res str := osl_comment_idump c 0.
(** source/extensions/textual.c:87-125 osl_textual_idump: the first and the last 20 characters of a text of more than 40 characters. *)
Definition shortened (t : str) : str :=
  if 40 <? zlength t then firstn 20 t ++ lit "   ...   " ++ skipn (List.length t - 20) t else t.
Definition osl_textual_idump (x : option textual) (level : Z) : res str :=
  match x with
  | Some (Some t) => Ok (line level (lit "+-- osl_textual_t: " ++ shortened (flatten t)) ++ line (level + 1) [])
  | Some None => UB
  | None => Ok (line level (lit "+-- NULL textual") ++ line (level + 1) [])
  end.
(** source/extensions/textual.c:133-135 osl_textual_dump *)
Definition osl_textual_dump (x : option textual) : res str := osl_textual_idump x 0.
(** source/extensions/null.c:85-101 osl_null_idump *)
Definition osl_null_idump (x : option unit) (level : Z) : str :=
  line level (match x with Some _ => lit "+-- osl_null_t" | None => lit "+-- NULL null" end) ++ line (level + 1) [].
(** source/extensions/null.c:110-112 osl_null_dump *)
Definition osl_null_dump (x : option unit) : str := osl_null_idump x 0.
(** source/extensions/coordinates.c:85-132 osl_coordinates_idump *)
Definition osl_coordinates_idump (c : option coordinates) (level : Z) : str :=
  match c with
  | Some c => line level (lit "+-- osl_coordinates_t")
              ++ line (level + 1) (match co_name c with Some t => lit "File name__: " ++ t | None => lit "NULL file name" end)
              ++ line (level + 1) (lit "Coordinates: [" ++ print_Z (co_line_start c) ++ lit "," ++ print_Z (co_column_start c)
                                   ++ lit " -> " ++ print_Z (co_line_end c) ++ lit "," ++ print_Z (co_column_end c) ++ lit "]")
              ++ line (level + 1) (lit "Indentation: " ++ print_Z (co_indent c))
  | None => line level (lit "+-- NULL coordinates")
  end ++ line (level + 1) [].
(** source/extensions/coordinates.c:140-143 osl_coordinates_dump *)
Definition osl_coordinates_dump (c : option coordinates) : str := osl_coordinates_idump c 0.
(** source/extensions/scatnames.c:86-114 osl_scatnames_idump *)
Definition osl_scatnames_idump (n : option scatnames) (level : Z) : str :=
  match n with
  | Some n => line level (lit "+-- osl_scatnames_t") ++ line (level + 2) [] ++ osl_strings_idump n (level + 1)
  | None => line level (lit "+-- NULL scatnames")
  end ++ line (level + 1) [].
(** source/extensions/scatnames.c:122-125 osl_scatnames_dump *)
Definition osl_scatnames_dump (n : option scatnames) : str := osl_scatnames_idump n 0.
(** source/extensions/scatinfos.c:85-150 osl_scatinfos_idump *)
Definition osl_scatinfos_idump (i : option scatinfos) (level : Z) : str :=
  match i with
  | Some l => line level (lit "+-- osl_scatinfos_t")
              ++ line (level + 1) (lit "+--nb_scatdims: " ++ print_Z (zlength l)) ++ line (level + 2) []
              ++ line (level + 1) (lit "+--parallel--: " ++ flat_map (fun x => comma (si_parallel x)) l) ++ line (level + 2) []
              ++ line (level + 1) (lit "+--permutable: " ++ flat_map (fun x => comma (si_permutable x)) l) ++ line (level + 2) []
              ++ line (level + 1) (lit "+--type------: " ++ flat_map (fun x => comma (si_type x)) l)
  | None => line level (lit "+-- NULL scatinfos")
  end ++ line (level + 1) [].
(** source/extensions/scatinfos.c:158-161 osl_scatinfos_dump *)
Definition osl_scatinfos_dump (i : option scatinfos) : str := osl_scatinfos_idump i 0.
(** source/extensions/extbody.c:86-127 osl_extbody_idump: the body is written at the same level. *)
Definition osl_extbody_idump (e : option extbody) (level : Z) : str :=
  match e with
  | Some e => line level (lit "+-- osl_extbody_t") ++ line (level + 1) (lit "nb_access: " ++ print_Z (zlength (eb_access e)))
              ++ flat_map (fun x => line (level + 1) (lit "start: " ++ print_Z (fst x) ++ lit ", length: " ++ print_Z (snd x))) (eb_access e)
              ++ osl_body_idump (eb_body e) level
  | None => line level (lit "+-- NULL extbody")
  end ++ line (level + 1) [].
(** source/extensions/extbody.c:135-137 osl_extbody_dump *)
Definition osl_extbody_dump (e : option extbody) : str := osl_extbody_idump e 0.
(** source/extensions/loop.c:88-166 osl_loop_idump *)
Definition loop_node (level n : Z) (x : loop) : res str :=
  Ok (next_title n level (lit "|   osl_loop_t (node " ++ print_Z n ++ lit ")") ++ line (level + 2) []
      ++ line (level + 1) (lit "+--iterator: " ++ pr (lo_iter x))
      ++ line (level + 1) (lit "+--nb_stmts: " ++ print_Z (zlength (lo_stmts x)))
      ++ line (level + 1) (lit "+--stmt_ids:" ++ flat_map (fun v => print2 v ++ lit ", ") (lo_stmts x))
      ++ line (level + 1) (lit "+--private_vars: " ++ pr (lo_private x))
      ++ line (level + 1) (lit "+--directive: " ++ print_Z (lo_directive x))
      ++ line (level + 1) (lit "+--user: " ++ pr (lo_user x))).
Definition osl_loop_idump (l : list loop) (level : Z) : res str :=
  t <- nodes (loop_node level) (line (level + 1) (lit "V")) 1 l ;;
  Ok (line level (match l with _ :: _ => lit "+-- osl_loop_t" | [] => lit "+-- NULL loop" end) ++ t ++ line (level + 1) []).
(** source/extensions/loop.c:174-176 osl_loop_dump *)
Definition osl_loop_dump (l : list loop) : res str := osl_loop_idump l 0.
(** source/extensions/pluto_unroll.c:83-144 osl_pluto_unroll_idump *)
Definition unroll_node (level n : Z) (x : unroll) : res str :=
  Ok (next_title n level (lit "|   osl_pluto_unroll_t (node " ++ print_Z n ++ lit ")") ++ line (level + 2) []
      ++ line (level + 1) (lit "+--iterator: " ++ pr (un_iter x))
      ++ line (level + 1) (lit "+--jam: " ++ print_Z (if un_jam x then 1 else 0))
      ++ line (level + 1) (lit "+--factor: " ++ print_Z (un_factor x))).
Definition osl_pluto_unroll_idump (l : list unroll) (level : Z) : res str :=
  t <- nodes (unroll_node level) (line (level + 1) (lit "V")) 1 l ;;
  Ok (line level (match l with _ :: _ => lit "+-- osl_pluto_unroll_t" | [] => lit "+-- NULL pluto_unroll" end)
      ++ t ++ line (level + 1) []).
(** source/extensions/pluto_unroll.c:152-155 osl_pluto_unroll_dump *)
Definition osl_pluto_unroll_dump (l : list unroll) : res str := osl_pluto_unroll_idump l 0.
(** source/extensions/annotation.c:106-113 osl_annotation_text_idump, source/extensions/region.c:104-111 osl_region_text_idump: the second
    line is not indented. *)
Definition text_node (level n : Z) (x : Z * option str) : res str :=
  Ok (line level (lit "+--type " ++ print_Z n ++ lit ": " ++ print_Z (fst x))
      ++ lit "+--line " ++ print_Z n ++ lit ": " ++ pr (snd x) ++ [c_nl]).
Definition text_idump (l : text_lines) (level : Z) : res str := nodes (text_node level) [] 0 l.
(** source/extensions/annotation.c:187-206 osl_annotation_idump: the texts of a NULL annotation are read. *)
Definition osl_annotation_idump (a : option annotation) (level : Z) : res str :=
  match a with
  | Some a => p <- text_idump (an_prefix a) (level + 2) ;; s <- text_idump (an_suffix a) (level + 2) ;;
              Ok (line level (lit "+-- osl_annotation_t") ++ line level [] ++ p ++ s ++ line level [])
  | None => UB
  end.
(** source/extensions/annotation.c:208-210 osl_annotation_dump *)
Definition osl_annotation_dump (a : option annotation) : res str := osl_annotation_idump a 0.
(** source/extensions/region.c:195-233 osl_region_idump *)
Definition region_node (level n : Z) (r : region) : res str :=
  a <- text_idump (re_prefix r) (level + 2) ;; b <- text_idump (re_suffix r) (level + 2) ;;
  c <- text_idump (re_prelude r) (level + 2) ;; e <- text_idump (re_postlude r) (level + 2) ;;
  Ok (next_title n level (lit "|   osl_region_t (node " ++ print_Z n ++ lit ")") ++ line level []
      ++ line level (lit "+--location: " ++ print_Z (re_location r)) ++ a ++ b ++ c ++ e).
Definition osl_region_idump (l : list region) (level : Z) : res str :=
  t <- nodes (region_node level) [] 1 l ;;
  Ok (line level (match l with _ :: _ => lit "+-- osl_region_t" | [] => lit "+-- NULL region" end) ++ t ++ line level []).
(** source/extensions/region.c:235-237 osl_region_dump *)
Definition osl_region_dump (l : list region) : res str := osl_region_idump l 0.
(** source/extensions/irregular.c:87-135 osl_irregular_idump: only the first line of the contents is indented. *)
Definition predicate_idump (what : str) (i : Z) (x : predicate) : str :=
  lit "predicat" ++ print_Z i ++ lit "'s" ++ [c_nl] ++ lit "iterators : "
  ++ flat_map (fun t => pr t ++ [c_sp]) (pd_iterators x) ++ [c_nl] ++ what ++ lit " body: " ++ pr (pd_body x) ++ [c_nl].
Definition osl_irregular_idump (x : option irregular) (level : Z) : res str :=
  match x with
  | Some x =>
      s <- nodes (fun n l => Ok (lit "statement" ++ print_Z n ++ lit "'s predicats : " ++ print_row l ++ [c_nl])) [] 0 (ir_statements x) ;;
      c <- cfor 0 (ir_control x) (fun i s => y <- aget (ir_predicates x) i ;; Ok (s ++ predicate_idump (lit "control") i y)) [] ;;
      e <- cfor (ir_control x) (ir_control x + ir_exit x)
             (fun i s => y <- aget (ir_predicates x) i ;; Ok (s ++ predicate_idump (lit "exit") i y)) [] ;;
      Ok (line level (lit "+-- osl_irregular_t") ++ indent (level + 1) ++ s ++ c ++ e ++ line (level + 1) [])
  | None => Ok (line level (lit "+-- NULL irregular") ++ line (level + 1) [])
  end.
(** source/extensions/irregular.c:145-148 osl_irregular_dump *)
Definition osl_irregular_dump (x : option irregular) : res str := osl_irregular_idump x 0.

(** ** Dependences *)
(** The statements a dependence points to (stmt_source_ptr, stmt_target_ptr); osl_dependence_malloc and osl_dependence_sread leave NULL
    pointers.  Simplification: two dependences with the same contents point to the same statements. *)
Variable pointed : dependence -> option statement * option statement.
Section NESTED.
(** How one statement is dumped at a level (osl_statement_idump with next = NULL, see below). *)
Variable statement_idump_one : statement -> Z -> res str.
(** stmt_source_ptr->next is read, cleared and restored. *)
Definition pointed_idump (s : option statement) (level : Z) : res str :=
  match s with Some s => statement_idump_one s level | None => UB end.
(** source/extensions/dependence.c:126-150 *)
Definition dep_type_dump (t : Z) : str :=
  if t =? UNDEFINED then lit "UNSET"
  else if t =? 1 then lit "RAW (flow)" else if t =? 2 then lit "WAR (anti)" else if t =? 3 then lit "WAW (output)"
  else if t =? 4 then lit "RAR (input)" else if t =? 5 then lit "RAW_SCALPRIV (scalar priv)" else lit "unknown".
(** source/extensions/dependence.c:91-219 osl_dependence_idump *)
Definition dependence_node (level n : Z) (d : dependence) : res str :=
  a <- pointed_idump (fst (pointed d)) (level + 1) ;;
  b <- pointed_idump (snd (pointed d)) (level + 1) ;;
  u <- osl_relation_idump (de_domain d) (level + 1) ;;
  Ok (next_title n level (lit "|   osl_dependence_p") ++ line (level + 2) []
      ++ line (level + 1) (lit "Type: " ++ dep_type_dump (de_type d)) ++ line (level + 2) []
      ++ line (level + 1) (lit "Depth: " ++ print_Z (de_depth d)) ++ line (level + 2) []
      ++ line (level + 1) (lit "Ref source: " ++ print_Z (de_ref_source d) ++ lit ", Ref target: " ++ print_Z (de_ref_target d))
      ++ line (level + 2) []
      ++ line (level + 1) (lit "Statement label: " ++ print_Z (de_label_source d)) ++ a
      ++ line (level + 1) (lit "Target label: " ++ print_Z (de_label_target d)) ++ b
      ++ line (level + 1) (print_spaced (de_dims d)) ++ u).
Definition osl_dependence_idump (l : list dependence) (level : Z) : res str :=
  t <- nodes (dependence_node level) (line (level + 1) (lit "V")) 1 l ;;
  Ok (line level (match l with _ :: _ => lit "+-- osl_dependence_p" | [] => lit "+-- NULL dependence" end)
      ++ t ++ line (level + 1) []).

(** ** Generics and symbols *)
(** The idump functions of the interfaces on NULL *)
Definition null_idump (k : kind) (level : Z) : res str :=
  match k with
  | KStrings => Ok (osl_strings_idump None level)
  | KBody => Ok (osl_body_idump None level)
  | KRelation => osl_relation_idump [] level
  | KTextual => osl_textual_idump None level
  | KComment => osl_comment_idump None level
  | KNull => Ok (osl_null_idump None level)
  | KScatinfos => Ok (osl_scatinfos_idump None level)
  | KScatnames => Ok (osl_scatnames_idump None level)
  | KArrays => Ok (osl_arrays_idump None level)
  | KCoordinates => Ok (osl_coordinates_idump None level)
  | KClay => osl_clay_idump None level
  | KDependence => osl_dependence_idump [] level
  | KSymbols => Ok (line level (lit "+-- NULL symbols") ++ line (level + 1) [])
  | KExtbody => Ok (osl_extbody_idump None level)
  | KLoop => osl_loop_idump [] level
  | KPlutoUnroll => osl_pluto_unroll_idump [] level
  | KRegion => osl_region_idump [] level
  | KAnnotation => osl_annotation_idump None level
  end.
(** The loop of source/generic.c:85-133 osl_generic_idump; [f] dumps one node. *)
Definition generics_idump (f : Z -> Z -> generic -> res str) (l : list generic) (level : Z) : res str :=
  t <- nodes (f level) (line (level + 1) (lit "V")) 1 l ;;
  Ok (line level (match l with _ :: _ => lit "+-- osl_generic_t" | [] => lit "+-- NULL generic" end)
      ++ t ++ line (level + 1) []).
(** source/extensions/symbols.c:117-150: the kind of the symbol *)
Definition symbol_type_dump (t : Z) : str :=
  if t =? UNDEFINED then lit "+-- NULL type"
  else lit "+-- Type: " ++
       (if t =? 1 then lit "Iterator" else if t =? 2 then lit "Parameter" else if t =? 3 then lit "Array"
        else if t =? 4 then lit "Function" else lit "Unknown").
(** The functions of the interfaces; one symbol of source/extensions/symbols.c:86-196 osl_symbols_idump; one node of
    source/generic.c:85-133 osl_generic_idump *)
Fixpoint data_idump (k : kind) (d : edata) (level : Z) {struct d} : res str :=
  match k, d with
  | KStrings, DStrings s => Ok (osl_strings_idump (Some s) level)
  | KBody, DBody b => Ok (osl_body_idump (Some b) level)
  | KRelation, DRelation u => osl_relation_idump u level
  | KTextual, DTextual t => osl_textual_idump (Some t) level
  | KComment, DComment c => osl_comment_idump (Some c) level
  | KNull, DNull => Ok (osl_null_idump (Some tt) level)
  | KScatinfos, DScatinfos i => Ok (osl_scatinfos_idump (Some i) level)
  | KScatnames, DScatnames n => Ok (osl_scatnames_idump (Some n) level)
  | KArrays, DArrays a => Ok (osl_arrays_idump (Some a) level)
  | KCoordinates, DCoordinates c => Ok (osl_coordinates_idump (Some c) level)
  | KClay, DClay c => osl_clay_idump (Some c) level
  | KDependence, DDependence l => osl_dependence_idump l level
  | KSymbols, DSymbols l =>
      t <- nodes (symbol_node level) (line (level + 1) (lit "V")) 1 l ;;
      Ok (line level (match l with _ :: _ => lit "+-- osl_symbols_t" | [] => lit "+-- NULL symbols" end)
          ++ t ++ line (level + 1) [])
  | KExtbody, DExtbody e => Ok (osl_extbody_idump (Some e) level)
  | KLoop, DLoop l => osl_loop_idump l level
  | KPlutoUnroll, DPlutoUnroll l => osl_pluto_unroll_idump l level
  | KRegion, DRegion l => osl_region_idump l level
  | KAnnotation, DAnnotation a => osl_annotation_idump (Some a) level
  | _, _ => UB
  end
with symbol_node (level n : Z) (x : symbol) {struct x} : res str :=
  match x with
  | Symbol ty gen dims a b c e =>
      ta <- generics_idump generic_node a (level + 1) ;;
      tb <- generics_idump generic_node b (level + 1) ;;
      tc <- generics_idump generic_node c (level + 1) ;;
      te <- generics_idump generic_node e (level + 1) ;;
      Ok (next_title n level (lit "|   osl_symbol_t (node " ++ print_Z n ++ lit ")") ++ line (level + 2) []
          ++ line (level + 1) (symbol_type_dump ty) ++ line (level + 2) []
          ++ line (level + 1) (if gen =? UNDEFINED then lit "+-- Undefined origin" else lit "+-- Origin: " ++ print_Z gen)
          ++ line (level + 2) []
          ++ line (level + 1) (if dims =? UNDEFINED then lit "+-- Undefined number of dimensions"
                               else lit "+-- Number of Dimensions: " ++ print_Z dims)
          ++ line (level + 2) []
          ++ ta ++ tb ++ tc ++ te)
  end
with generic_node (level n : Z) (g : generic) {struct g} : res str :=
  match g with
  | Generic i d =>
      ti <- osl_interface_idump (match i with Some i => [i] | None => [] end) (level + 1) ;;
      td <- match i with
            | Some i => match d with Some d => data_idump (if_kind i) d (level + 1) | None => null_idump (if_kind i) (level + 1) end
            | None => Ok []
            end ;;
      Ok (next_title n level (lit "|   osl_generic_t") ++ line (level + 2) [] ++ ti ++ td)
  end.
(** source/generic.c:85-133 osl_generic_idump *)
Definition generic_idump (l : list generic) (level : Z) : res str := generics_idump generic_node l level.
(** source/extensions/symbols.c:86-196 osl_symbols_idump *)
Definition symbols_idump (l : list symbol) (level : Z) : res str :=
  match l with [] => null_idump KSymbols level | _ => data_idump KSymbols (DSymbols l) level end.

(** ** Statements *)
(** source/statement.c:95-150 osl_statement_idump *)
Definition statement_node (level n : Z) (s : statement) : res str :=
  a <- osl_relation_idump (st_domain s) (level + 1) ;;
  b <- osl_relation_idump (st_scattering s) (level + 1) ;;
  c <- osl_relation_list_idump (st_access s) (level + 1) ;;
  e <- generic_idump (st_ext s) (level + 1) ;;
  Ok (next_title n level (lit "|   osl_statement_t (S" ++ print_Z n ++ lit ")") ++ line (level + 2) [] ++ a ++ b ++ c ++ e).
Definition statements_idump (l : list statement) (level : Z) : res str :=
  t <- nodes (statement_node level) (line (level + 1) (lit "V")) 1 l ;;
  Ok (line level (match l with _ :: _ => lit "+-- osl_statement_t (S1)" | [] => lit "+-- NULL statement" end)
      ++ t ++ line (level + 1) []).
(** source/scop.c:91-166 osl_scop_idump *)
Definition scop_node (level n : Z) (s : scop) : res str :=
  a <- osl_relation_idump (sc_context s) (level + 1) ;;
  b <- generic_idump (sc_params s) (level + 1) ;;
  c <- statements_idump (sc_stmts s) (level + 1) ;;
  e <- osl_interface_idump (sc_registry s) (level + 1) ;;
  f <- generic_idump (sc_ext s) (level + 1) ;;
  Ok (next_title n level (lit "|   osl_scop_t") ++ line (level + 2) []
      ++ line (level + 1) (lit "Version: " ++ print_Z (sc_version s)) ++ line (level + 2) []
      ++ line (level + 1) (lit "Language: " ++ pr (sc_language s)) ++ line (level + 2) []
      ++ a ++ b ++ c ++ e ++ f).
Definition scops_idump (l : list scop) (level : Z) : res str :=
  t <- nodes (scop_node level) (line (level + 1) (lit "V")) 1 l ;;
  Ok (line level (match l with _ :: _ => lit "+-- osl_scop_t" | [] => lit "+-- NULL scop" end)
      ++ t ++ line (level + 1) []).
End NESTED.

(** The functions call each other: a statement may hold a dependence, a dependence points to statements.  [fuel] bounds this
    nesting; where the C program recurses for ever no amount of it is enough. *)
Fixpoint statement_idump_one (fuel : nat) (s : statement) (level : Z) : res str :=
  match fuel with
  | O => OutOfFuel
  | S k => statements_idump (statement_idump_one k) [s] level
  end.
(** source/generic.c:85-133 osl_generic_idump and source/generic.c:141-143 osl_generic_dump *)
Definition osl_generic_idump (fuel : nat) (l : list generic) (level : Z) : res str := generic_idump (statement_idump_one fuel) l level.
Definition osl_generic_dump (fuel : nat) (l : list generic) : res str := osl_generic_idump fuel l 0.
(** source/extensions/symbols.c:86-196 osl_symbols_idump and source/extensions/symbols.c:205-207 osl_symbols_dump *)
Definition osl_symbols_idump (fuel : nat) (l : list symbol) (level : Z) : res str := symbols_idump (statement_idump_one fuel) l level.
Definition osl_symbols_dump (fuel : nat) (l : list symbol) : res str := osl_symbols_idump fuel l 0.
(** source/extensions/dependence.c:227-230 osl_dependence_dump *)
Definition osl_dependence_dump (fuel : nat) (l : list dependence) : res str := osl_dependence_idump (statement_idump_one fuel) l 0.
(** source/statement.c:95-150 osl_statement_idump and source/statement.c:158-160 osl_statement_dump *)
Definition osl_statement_idump (fuel : nat) (l : list statement) (level : Z) : res str := statements_idump (statement_idump_one fuel) l level.
Definition osl_statement_dump (fuel : nat) (l : list statement) : res str := osl_statement_idump fuel l 0.
(** source/scop.c:91-166 osl_scop_idump and source/scop.c:175-177 osl_scop_dump *)
Definition osl_scop_idump (fuel : nat) (l : list scop) (level : Z) : res str := scops_idump (statement_idump_one fuel) l level.
Definition osl_scop_dump (fuel : nat) (l : list scop) : res str := osl_scop_idump fuel l 0.
End DUMP.
