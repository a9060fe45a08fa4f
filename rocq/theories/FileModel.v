(** * FileModel: the printers and readers that go directly to a file *)
From Verif Require Import Base IntModel VectorModel RelationModel UtilModel StringsModel RelTextModel ExtModel ScopModel.

(** The text a function adds to the file it is given. *)

(** source/strings.c:159-167 osl_strings_print: the text of osl_strings_sprint (never NULL). *)
Definition osl_strings_print (s : option strings) : res str := osl_strings_sprint s.

(** source/body.c:133-151 osl_body_print *)
Definition osl_body_print (b : option body) : res str :=
  match b with
  | None => Ok (ln (lit "# NULL statement body"))
  | Some b =>
      let nb := osl_strings_size (bo_iterators b) in
      it <- (if 0 <? nb
             then t <- osl_strings_print (bo_iterators b) ;; Ok (c_nl :: ln (lit "# List of original iterators") ++ t)
             else Ok []) ;;
      e <- osl_strings_print (bo_expression b) ;;
      Ok (ln (lit "# Number of original iterators") ++ lnZ nb ++ it
          ++ c_nl :: ln (lit "# Statement body expression") ++ e)
  end.

Section File.
Context {cfg : config}.

(** source/extensions/dependence.c:236-241 osl_dependence_print: printf of a NULL string is undefined. *)
Definition osl_dependence_print (l : list dependence) : res str :=
  o <- osl_dependence_sprint l ;;
  match o with None => UB | Some t => Ok (ln t) end.

(** source/relation.c:1200-1205 osl_relation_pprint *)
Definition osl_relation_pprint (u : list relation) (n : option names) : res str := osl_relation_spprint u n.
(** source/relation.c:1245-1247 osl_relation_print *)
Definition osl_relation_print (u : list relation) : res str := osl_relation_pprint u None.
(** source/relation_list.c:313-316 osl_relation_list_print *)
Definition osl_relation_list_print (l : list (list relation)) : res str := osl_relation_list_pprint l None.
(** source/relation_list.c:361-364 osl_relation_list_read: the precision is that of the environment. *)
Definition osl_relation_list_read (env : option str) (f : file) : res (list (list relation) * file) :=
  osl_relation_list_pread f (osl_util_get_precision env).

(** source/relation.c:1639-1642 osl_relation_malloc *)
Definition osl_relation_malloc (env : option str) (rows cols : Z) : res relation :=
  osl_relation_pmalloc (osl_util_get_precision env) rows cols.
(** source/relation.c:1644-1646 osl_relation_interface_malloc *)
Definition osl_relation_interface_malloc (env : option str) : res relation := osl_relation_malloc env 0 0.
(** source/vector.c:175-178 osl_vector_malloc *)
Definition osl_vector_malloc (env : option str) (size : Z) : res vector :=
  osl_vector_pmalloc (osl_util_get_precision env) size.
End File.
