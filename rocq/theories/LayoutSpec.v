(** * LayoutSpec: the layout of the files (C49, C53)

    The lines of a saved scop that are not the text of a relation, of the parameters, of a body or of an extension. *)
From Verif Require Import Base IntModel RelationModel UtilModel StringsModel RelTextModel ExtModel ScopModel Spec RelSpec TextSpec ScopSpec ScoplibSpec.

(** Lines, with the newline. *)
Definition text_line (t : str) : str := t ++ [c_nl].
Definition blank_line : str := [c_nl].
Definition number_line (v : Z) : str := text_line (print_Z v).
(** Titles are comments. *)
Definition title (t : str) : str := text_line (lit "# =============================================== " ++ t).
(** "%2d" *)
Definition two_places (k : Z) : str := if (0 <=? k) && (k <? 10) then c_sp :: print_Z k else print_Z k.
Definition section (k : Z) (t : str) : str := text_line (lit "# ---------------------------------------------- " ++ two_places k ++ t).
(** Texts one after the other, numbered from [k]. *)
Inductive numbered_texts {A} (one : Z -> A -> str -> Prop) : Z -> list A -> str -> Prop :=
| nt_nil k : numbered_texts one k [] []
| nt_cons k x l t t' : one k x t -> numbered_texts one (k + 1) l t' -> numbered_texts one k (x :: l) (t ++ t').
(** Texts separated by a blank line. *)
Fixpoint separated (l : list str) : str :=
  match l with [] => [] | [t] => t | t :: tl => t ++ blank_line ++ separated tl end.

Section LAYOUT.
Context {cfg : config}.

(** ** The OpenScop format *)
Definition present (u : list relation) : Prop := u <> [].
Definition is_present (u : list relation) : bool := match u with [] => false | _ => true end.
(** The relations of a statement: how many there are, the domain, the scattering, the accesses; its extensions: how many there are, their texts. *)
Definition statement_laid_out (k : Z) (s : statement) (text : str) : Prop :=
  exists n d c a e,
    osl_relation_spprint (st_domain s) (Some n) = Ok d /\ osl_relation_spprint (st_scattering s) (Some n) = Ok c /\
    (Forall present (st_access s) -> st_access s <> [] ->
       exists texts, Forall2 (fun u t => osl_relation_spprint u (Some n) = Ok t) (st_access s) texts /\ a = separated texts) /\
    (Forall (fun u => ~ present u) (st_access s) -> a = text_line (lit "# NULL relation list")) /\
    (st_ext s <> [] -> osl_generic_sprint (st_ext s) = Ok e) /\ (st_ext s = [] -> e = []) /\
    text = title (lit "Statement " ++ print_Z k)
           ++ text_line (lit "# Number of relations describing the statement:")
           ++ number_line (zlength (filter is_present (st_domain s :: st_scattering s :: st_access s))) ++ blank_line
           ++ section k (lit ".1 Domain") ++ d ++ blank_line
           ++ section k (lit ".2 Scattering") ++ c ++ blank_line
           ++ section k (lit ".3 Access") ++ a ++ blank_line
           ++ section k (lit ".4 Statement Extensions") ++ text_line (lit "# Number of Statement Extensions") ++ number_line (zlength (st_ext s)) ++ e ++ blank_line.
Definition provided (b : bool) (what : str) : str :=
  if b then text_line (lit "# " ++ what ++ lit " provided") ++ number_line 1
  else text_line (lit "# " ++ what ++ lit " not provided") ++ number_line 0 ++ blank_line.
Definition language_line (s : scop) : str := text_line (match sc_language s with Some w => w | None => lit "(null)" end).
Definition scop_laid_out (s : scop) (text : str) : Prop :=
  exists n c p t e,
    osl_relation_spprint (sc_context s) (Some n) = Ok c /\ osl_generic_sprint (sc_params s) = Ok p /\
    numbered_texts statement_laid_out 1 (sc_stmts s) t /\ osl_generic_sprint (sc_ext s) = Ok e /\
    text = blank_line ++ text_line (lit "<OpenScop>") ++ blank_line
           ++ title (lit "Global") ++ text_line (lit "# Language") ++ language_line s ++ blank_line
           ++ text_line (lit "# Context") ++ c ++ blank_line
           ++ provided (osl_generic_has_URI (sc_params s) (lit "strings")) (lit "Parameters are") ++ p ++ blank_line
           ++ text_line (lit "# Number of statements") ++ number_line (zlength (sc_stmts s)) ++ blank_line ++ t
           ++ match sc_ext s with [] => [] | _ => title (lit "Extensions") ++ e end
           ++ blank_line ++ text_line (lit "</OpenScop>") ++ blank_line.
Definition file_laid_out (l : list scop) (text : str) : Prop :=
  exists version texts, no_nl version /\ Forall2 scop_laid_out l texts /\
    text = text_line (lit "# [File generated by the OpenScop Library " ++ version ++ lit "]") ++ concat texts.

(** ** The SCoPLib format *)
Definition statement_laid_out_scoplib (k : Z) (s : statement) (text : str) : Prop :=
  exists d c a e,
    words d = numbers (union_numbers (loopless s) (st_domain s)) /\
    words c = numbers (flat_map (scattering_numbers (loopless s)) (st_scattering s)) /\
    words a = numbers (accesses_numbers TYPE_READ (loopless s) (st_access s)) ++ numbers (accesses_numbers TYPE_WRITE (loopless s) (st_access s)) /\
    (match body_of_statement s with
     | None => e = text_line (lit "# Statement body is not provided") ++ number_line 0
     | Some _ => exists b, e = text_line (lit "# Statement body is provided") ++ number_line 1 ++ b /\ lit "1" :: words b = body_words (body_of_statement s)
     end) /\
    text = title (lit "Statement " ++ print_Z k)
           ++ section k (lit ".1 Domain") ++ text_line (lit "# Iteration domain") ++ d ++ blank_line
           ++ section k (lit ".2 Scattering") ++ text_line (lit "# Scattering function is provided") ++ number_line 1 ++ c ++ blank_line
           ++ section k (lit ".3 Access") ++ text_line (lit "# Access informations are provided") ++ number_line 1 ++ a ++ blank_line
           ++ section k (lit ".4 Body") ++ e ++ blank_line.
End LAYOUT.
