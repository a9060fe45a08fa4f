(** * StringsModel: source/strings.c and source/names.c

    An osl_strings_t is its NULL-terminated array: [None] is a NULL [string]
    field, [Some l] the array of the strings of [l].  A pointer to one is an
    [option strings], [None] being NULL. *)
From Verif Require Import Base IntModel UtilModel.

Definition strings := option (list str).

(** The elements before the terminating NULL. *)
Definition elems (s : strings) : list str := match s with Some l => l | None => [] end.

(** source/strings.c:398-408 osl_strings_size *)
Definition osl_strings_size (s : option strings) : Z :=
  match s with Some (Some l) => zlength l | _ => 0 end.

(** source/strings.c:271-279 osl_strings_malloc *)
Definition osl_strings_malloc : strings := Some [].

(** source/strings.c:126-150 osl_strings_sprint; each element goes through [char buffer[OSL_MAX_STRING]]
    with an unbounded sprintf. *)
Fixpoint sprint_elems (l : list str) : res str :=
  match l with
  | [] => Ok []
  | x :: tl =>
      b <- buf_store x ;;
      r <- sprint_elems tl ;;
      Ok (b ++ (match tl with [] => [] | _ => [c_sp] end) ++ r)
  end.
Definition osl_strings_sprint (s : option strings) : res str :=
  match s with
  | None => Ok (lit "# NULL strings" ++ [c_nl])
  | Some s => b <- sprint_elems (elems s) ;; Ok (b ++ [c_nl])
  end.

(** First loop of osl_strings_sread: number of non-empty tokens up to the end of
    the line, a '#' or the end. *)
Fixpoint count_tokens (fuel : nat) (s : str) (n : Z) : res Z :=
  match fuel with
  | O => OutOfFuel
  | S k =>
      let '(t, r) := span is_tok s in
      let n' := match t with [] => n | _ => n + 1 end in
      match r with
      | [] => Ok n'
      | c :: r' => if ceqb c c_hash || ceqb c c_nl then Ok n' else count_tokens k r' n'
      end
  end.
(** Second loop: [nb] tokens, each followed by the skipping of exactly one
    character unless it is '#'.  The cursor [None] is one past the terminating
    NUL; reading there is undefined. *)
Fixpoint read_tokens (nb : nat) (s : option str) : res (list str * option str) :=
  match nb with
  | O => Ok ([], s)
  | S k =>
      match s with
      | None => UB
      | Some s =>
          let '(t, r) := span is_tok s in
          t <- buf_store t ;;
          let s' := match r with
                    | [] => None
                    | c :: r' => if ceqb c c_hash then Some r else Some r'
                    end in
          '(l, e) <- read_tokens k s' ;; Ok (t :: l, e)
      end
  end.
(** source/strings.c:185-238 osl_strings_sread: result (NULL when there is no string) and new cursor. *)
Definition osl_strings_sread (s : str) : res (option strings * option str) :=
  s1 <- osl_util_sskip_blank_and_comments s ;;
  nb <- count_tokens (S (List.length s1)) s1 0 ;;
  if 0 <? nb
  then '(l, e) <- read_tokens (Z.to_nat nb) (Some s1) ;; Ok (Some (Some l), e)
  else Ok (None, Some s1).

(** source/strings.c:249-257 osl_strings_read: at the end of the file the NULL line is dereferenced. *)
Definition osl_strings_read (f : file) : res (option strings * file) :=
  '(o, f') <- osl_util_skip_blank_and_comments f ;;
  match o with
  | None => UB
  | Some l => '(r, _) <- osl_strings_sread l ;; Ok (r, f')
  end.

(** source/strings.c:313-331 osl_strings_clone *)
Definition osl_strings_clone (s : option strings) : option strings :=
  match s with
  | None => None
  | Some s => if osl_strings_size (Some s) =? 0 then Some osl_strings_malloc
              else Some (Some (elems s))
  end.

Fixpoint find_loop (l : list str) (x : str) (i : Z) : Z :=
  match l with
  | [] => i
  | y :: tl => if str_eqb y x then i else find_loop tl x (i + 1)
  end.
(** source/strings.c:340-349 osl_strings_find *)
Definition osl_strings_find (s : option strings) (x : str) : Z :=
  match s with Some s => find_loop (elems s) x 0 | None => 0 end.

(** source/strings.c:357-363 osl_strings_add: writes through the pointer, NULL is undefined. *)
Definition osl_strings_add (s : option strings) (x : str) : res strings :=
  match s with None => UB | Some s => Ok (Some (elems s ++ [x])) end.

Fixpoint equal_loop (a b : list str) : bool :=
  match a, b with
  | x :: a', y :: b' => str_eqb x y && equal_loop a' b'
  | _, _ => true
  end.
(** source/strings.c:373-389 osl_strings_equal *)
Definition osl_strings_equal (a b : option strings) : bool :=
  match a, b with
  | None, None => true
  | None, Some _ | Some _, None => false
  | Some x, Some y =>
      if osl_strings_size a =? osl_strings_size b then equal_loop (elems x) (elems y) else false
  end.

(** source/strings.c:417-425 osl_strings_encapsulate; a NULL string gives an empty array. *)
Definition osl_strings_encapsulate (x : option str) : strings :=
  match x with Some x => Some [x] | None => Some [] end.

Fixpoint generate_loop (prefix : str) (n : nat) (i : Z) : list str :=
  match n with
  | O => []
  | S k => (prefix ++ print_Z (i + 1)) :: generate_loop prefix k (i + 1)
  end.
(** source/strings.c:457-478 osl_strings_generate: no array at all for 0, and a write before the array
    for a negative count. *)
Definition osl_strings_generate (prefix : str) (nb : Z) : res strings :=
  if nb =? 0 then Ok None
  else if nb <? 0 then UB
  else Ok (Some (generate_loop prefix (Z.to_nat nb) 0)).

(** source/strings.c:488-501 osl_strings_add_strings; a NULL [str2], or one without an array, is
    dereferenced; osl_strings_add on the NULL clone of a NULL [str1] as well. *)
Definition osl_strings_add_strings (s1 s2 : option strings) : res (option strings) :=
  match s2 with
  | Some (Some l2) =>
      match osl_strings_clone s1 with
      | Some c => Ok (Some (Some (elems c ++ l2)))
      | None => match l2 with [] => Ok None | _ => UB end
      end
  | _ => UB
  end.

(** ** source/names.c *)
Record names := Names { n_params : strings; n_iters : strings; n_scatt : strings;
                        n_locals : strings; n_arrays : strings }.
(** source/names.c:195-209 osl_names_generate *)
Definition osl_names_generate (pp : str) (np : Z) (pi : str) (ni : Z) (ps : str) (ns : Z)
  (pl : str) (nl : Z) (pa : str) (na : Z) : res names :=
  a <- osl_strings_generate pp np ;;
  b <- osl_strings_generate pi ni ;;
  c <- osl_strings_generate ps ns ;;
  d <- osl_strings_generate pl nl ;;
  e <- osl_strings_generate pa na ;;
  Ok (Names a b c d e).
