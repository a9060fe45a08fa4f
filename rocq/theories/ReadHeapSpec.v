(** * ReadHeapSpec: the strings a reader loses

    osl_generic_sread_one and osl_generic_read_one return at once on a closing tag, and the string that holds its name is never released
    (source/generic.c:264-267 and 306-309).  What follows lists these strings, in the order of the text. *)
From stdpp Require Import gmap.
From Verif Require Import Base IntModel RelationModel UtilModel StringsModel RelTextModel ExtModel HeapModel HeapObjects HeapSpec PayloadSpec MatSpec ScopModel FullSpec.

(** The name of a closing tag starts with a slash. *)
Definition closing (t : option str) : list str :=
  match t with Some (c :: t') => if ceqb c c_slash then [c :: t'] else [] | _ => [] end.
(** What comes after a step on the text *)
Definition after {A X} (r : res (A * X)) (f : X → list str) : list str := match r with Ok (_, s) => f s | _ => [] end.

Section LOST.
Context {cfg : config}.
Variable env : option str.
(** ** In the content of the extensions: only the symbols contain tags.  [one] reads an extension, [lost] is what it loses. *)
Definition lost_symbol (one : str → res (option generic * str)) (lost : str → list str) (s : str) : list str :=
  after (osl_util_read_string_s s) (λ s, after (osl_util_read_int_s s) (λ s, after (osl_util_read_int_s s) (λ s,
    lost s ++ after (one s) (λ s, lost s ++ after (one s) (λ s, lost s ++ after (one s) lost))))).
Fixpoint lost_symbols_loop (one : str → res (option generic * str)) (lost : str → list str) (n : nat) (s : str) : list str :=
  match n with
  | O => []
  | S k => lost_symbol one lost s ++ after (symbol_sread_one one s) (lost_symbols_loop one lost k)
  end.
Definition lost_symbols (one : str → res (option generic * str)) (lost : str → list str) (s : str) : list str :=
  match osl_util_read_int_s s with Ok (nb, s) => lost_symbols_loop one lost (Z.to_nat nb) s | _ => [] end.
Definition lost_in_extension (one : str → res (option generic * str)) (lost : str → list str) (registry : list interf) (tag : str) (content : option str) : list str :=
  match osl_interface_lookup registry tag, content with
  | Some (Iface _ KSymbols), Some s => lost_symbols one lost s
  | _, _ => []
  end.
(** ** One extension in a string *)
Fixpoint lost_one (fuel : nat) (registry : list interf) (s : str) : list str :=
  match fuel with
  | O => []
  | S k =>
      match osl_util_read_tag_s s with
      | Ok (t, s) =>
          closing t ++
          match usable_tag t with
          | Ok (Some tag) => lost_in_extension (sread_one_fuel env k default_registry) (lost_one k default_registry) registry tag (fst (osl_util_read_uptoendtag_s s tag))
          | _ => []
          end
      | _ => []
      end
  end.
Definition lost_generic (registry : list interf) (s : str) : list str := lost_one (S (List.length s)) registry s.
(** ** A list of extensions in a string *)
Fixpoint lost_loop (fuel : nat) (registry : list interf) (s : str) : list str :=
  match fuel, s with
  | S k, _ :: _ => lost_generic registry s ++ after (osl_generic_sread_one env registry s) (lost_loop k registry)
  | _, _ => []
  end.
Definition lost_generics (registry : list interf) (s : str) : list str := lost_loop (S (List.length s)) registry s.
(** ** In a file: one extension, the extensions of a scop *)
Definition lost_file_one (registry : list interf) (f : file) : list str :=
  match osl_util_read_tag_f f with
  | Ok (t, f) =>
      closing t ++
      match usable_tag t with
      | Ok (Some tag) =>
          match osl_util_read_uptoendtag_f f tag with
          | Ok (content, _) => lost_in_extension (osl_generic_sread_one env default_registry) (lost_generic default_registry) registry tag content
          | _ => []
          end
      | _ => []
      end
  | _ => []
  end.
Definition lost_file (registry : list interf) (f : file) : list str :=
  match osl_util_read_uptoendtag_f f uri_scop with Ok (Some s, _) => lost_generics registry s | _ => [] end.
(** ** Statements *)
Fixpoint lost_extensions (n : nat) (registry : list interf) (f : file) : list str :=
  match n with
  | O => []
  | S k => lost_file_one registry f ++ after (osl_generic_read_one env f registry) (lost_extensions k registry)
  end.
Definition lost_statement (registry : list interf) (p : Z) (f : file) : list str :=
  after (osl_relation_list_pread f p) (λ f, match osl_util_read_int_f f with Ok (n, f) => lost_extensions (Z.to_nat n) registry f | _ => [] end).
Fixpoint lost_statements (n : nat) (registry : list interf) (p : Z) (f : file) : list str :=
  match n with
  | O => []
  | S k => lost_statement registry p f ++ after (osl_statement_pread env f registry p) (lost_statements k registry p)
  end.
(** ** Scops: the parameters, the statements, the extensions *)
Definition lost_scop (registry : list interf) (p : Z) (f : file) : list str :=
  after (osl_strings_read f) (λ f, after (osl_relation_pread f p) (λ f,
    match osl_util_read_int_f f with
    | Ok (b, f) =>
        (if (0 <? b)%Z then lost_file_one registry f else []) ++
        after (if (0 <? b)%Z then osl_generic_read_one env f registry else Ok (None, f)) (λ f,
          match osl_util_read_int_f f with
          | Ok (n, f) => lost_statements (Z.to_nat n) registry p f ++ after (read_statements env (Z.to_nat n) registry p f) (lost_file registry)
          | _ => []
          end)
    | _ => []
    end)).
Fixpoint lost_scops (fuel : nat) (registry : list interf) (p : Z) (f : file) : list str :=
  match fuel with
  | O => []
  | S k =>
      match osl_util_read_uptotag_f f uri_scop with
      | Ok (Some _, f) => lost_scop registry p f ++ after (scop_pread_one env registry p f) (lost_scops k registry p)
      | _ => []
      end
  end.
Definition lost_scop_read (registry : list interf) (p : Z) (f : file) : list str := lost_scops (S (List.length (ftext f))) registry p f.
End LOST.

(** The memory of the lost strings: one block each, to which nothing points. *)
Fixpoint m_lost (l : list str) : mem :=
  match l with
  | [] => nothing True
  | t :: l' => somewhere (λ p, m_str p (Some t)) ⋆ m_lost l'
  end.
(** A registry in which the readers look up the tags: every interface has a URI, and no URI appears twice. *)
Definition registry_ok (R : list interf) : Prop := Forall (λ i, if_uri i ≠ None) R ∧ List.NoDup (map if_uri R).

(** ** What a reader does to the memory.  The value-level reader [v] gives what is read, and what is left of the text; the program [c],
    started on [h], gives a pointer to what is read (as [m] says) in memory of its own, leaves the same text and [h] as it was, and
    the strings [lost] besides; it stops when [v] is an error. *)
Definition reads {X T} (v : res (X * T)) (c : oprog (ptr * T)) (h : heap obj) (m : ptr → X → mem) (lost : list str) : Prop :=
  agrees v c h (λ xt pt, (λ h', snd pt = snd xt ∧ (exactly h ⋆ m (fst pt) (fst xt) ⋆ m_lost lost) h')).
(** The list of at most one element that stands for an extension or for NULL *)
Definition m_one (p : ptr) (g : option generic) : mem := m_generics p (match g with Some g => [g] | None => [] end).
(** The scatnames read, or NULL when the content of the extension is empty *)
Definition m_scatnames_read (p : ptr) (x : option scatnames) : mem := match x with None => nothing (p = NULL) | Some x => m_scatnames p x end.
(** The strings of the list have the form of closing tags. *)
Definition all_closing (l : list str) : Prop := Forall (λ t, ∃ t', t = c_slash :: t') l.
