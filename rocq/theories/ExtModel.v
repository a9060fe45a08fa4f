(** * ExtModel: statement bodies and extensions, source/body.c and source/extensions

    Values: a [char*] field is an [option str] ([None] is NULL), a linked list is
    a Coq list ([ [] ] is NULL), arrays allocated together with their size are
    lists.  [sprintf] into [char buffer[OSL_MAX_STRING]] goes through
    [buf_store]; growing strings are [++] (C37).  printf("%s") of NULL prints
    "(null)", as glibc does and as osl_loop_sread expects.  malloc(0) is not
    NULL, and a negative count converted to size_t is an allocation that fails.
    The idump functions are not modelled. *)
From Verif Require Import Base IntModel VectorModel RelationModel UtilModel StringsModel RelTextModel.

(** printf("%s", s) *)
Definition pr (s : option str) : str := match s with Some s => s | None => lit "(null)" end.
Definition ln (s : str) : str := s ++ [c_nl].
(** printf("%d\n", v) *)
Definition lnZ (v : Z) : str := print_Z v ++ [c_nl].

(** [n] times osl_util_read_int *)
Fixpoint read_ints (n : nat) (s : str) : res (list Z * str) :=
  match n with
  | O => Ok ([], s)
  | S k => '(v, s) <- osl_util_read_int_s s ;; '(l, s) <- read_ints k s ;; Ok (v :: l, s)
  end.

(** A loop of sprintf+strcat on an array. *)
Fixpoint print_all {A} (f : A -> res str) (l : list A) : res str :=
  match l with
  | [] => Ok []
  | x :: tl => a <- f x ;; b <- print_all f tl ;; Ok (a ++ b)
  end.

(** include/osl/macros.h:164-173 OSL_strdup: NULL gives NULL (with a warning). *)
Definition OSL_strdup (s : option str) : option str :=
  match s with Some s => Some (osl_util_strdup s) | None => None end.
(** for (i = 0; i < n; i++) clone[i] = copy of original[i]: the slots of the new array written so far. *)
Definition copy_array {A} (f : A -> res A) (n : Z) (l : list A) : res (list A) :=
  cfor 0 n (fun i acc => x <- aget l i ;; y <- f x ;; Ok (acc ++ [y])) [].

(** strcmp of two pointers: NULL is undefined. *)
Definition strcmp_eq (a b : option str) : res bool :=
  match a, b with Some a, Some b => Ok (str_eqb a b) | _, _ => UB end.

(** ** Bodies (source/body.c) *)
Record body := Body { bo_iterators : option strings; bo_expression : option strings }.

(** source/body.c:187-221 osl_body_sprint *)
Definition osl_body_sprint (b : option body) : res str :=
  match b with
  | None => Ok (ln (lit "# NULL body"))
  | Some b =>
      let nb := osl_strings_size (bo_iterators b) in
      it <- (if 0 <? nb
             then t <- osl_strings_sprint (bo_iterators b) ;; Ok (ln (lit "# List of original iterators") ++ t)
             else Ok []) ;;
      e <- osl_strings_sprint (bo_expression b) ;;
      Ok (ln (lit "# Number of original iterators") ++ lnZ nb ++ it
          ++ ln (lit "# Statement body expression") ++ e)
  end.
(** source/body.c:239-265 osl_body_sread on a non-NULL [input]; a cursor past the terminating NUL is undefined. *)
Definition osl_body_sread (s : str) : res (body * str) :=
  '(nb, s) <- osl_util_read_int_s s ;;
  '(it, c) <- (if 0 <? nb then osl_strings_sread s else Ok (Some osl_strings_malloc, Some s)) ;;
  match c with
  | None => UB
  | Some s => '(e, s) <- osl_util_read_line_s s ;; Ok (Body it (Some (osl_strings_encapsulate (Some e))), s)
  end.
(** source/body.c:314-324 osl_body_clone *)
Definition osl_body_clone (b : option body) : option body :=
  match b with
  | None => None
  | Some b => Some (Body (osl_strings_clone (bo_iterators b)) (osl_strings_clone (bo_expression b)))
  end.
(** source/body.c:335-355 osl_body_equal *)
Definition osl_body_equal (a b : option body) : bool :=
  match a, b with
  | None, None => true
  | Some a, Some b => osl_strings_equal (bo_iterators a) (bo_iterators b)
                      && osl_strings_equal (bo_expression a) (bo_expression b)
  | _, _ => false
  end.

(** ** Extended bodies (source/extensions/extbody.c): start/length of each access, and a body *)
Record extbody := Extbody { eb_access : list (Z * Z); eb_body : option body }.

(** source/extensions/extbody.c:146-177 osl_extbody_sprint *)
Definition osl_extbody_sprint (e : option extbody) : res (option str) :=
  match e with
  | None => Ok None
  | Some e =>
      c <- print_all (fun a => Ok (print_Z (fst a) ++ [c_sp] ++ lnZ (snd a))) (eb_access e) ;;
      b <- osl_body_sprint (eb_body e) ;;
      Ok (Some (ln (lit "# Number of accesses") ++ lnZ (zlength (eb_access e))
                ++ (if 0 <? zlength (eb_access e) then ln (lit "# Access coordinates (start/length)") else [])
                ++ c ++ b))
  end.
Fixpoint read_pairs (n : nat) (s : str) : res (list (Z * Z) * str) :=
  match n with
  | O => Ok ([], s)
  | S k =>
      '(a, s) <- osl_util_read_int_s s ;; '(b, s) <- osl_util_read_int_s s ;;
      '(l, s) <- read_pairs k s ;; Ok ((a, b) :: l, s)
  end.
(** source/extensions/extbody.c:196-229 osl_extbody_sread *)
Definition osl_extbody_sread (s : str) : res (extbody * str) :=
  '(nb, s) <- osl_util_read_int_s s ;;
  if nb <? 0 then Err
  else '(l, s) <- read_pairs (Z.to_nat nb) s ;; '(b, s) <- osl_body_sread s ;; Ok (Extbody l (Some b), s).
(** source/extensions/extbody.c:280-300 osl_extbody_clone *)
Definition osl_extbody_clone (e : option extbody) : res (option extbody) :=
  match e with
  | None => Ok None
  | Some e =>
      l <- copy_array (fun a => Ok (fst a, snd a)) (zlength (eb_access e)) (eb_access e) ;;
      Ok (Some (Extbody l (osl_body_clone (eb_body e))))
  end.
(** The nested search loops of the equality functions that "accept a different
    order": every element of the first is found in the second. *)
Definition all_found {A} (eqb : A -> A -> bool) (l1 l2 : list A) : bool :=
  forallb (fun x => existsb (eqb x) l2) l1.
Definition pair_eqb (a b : Z * Z) : bool := (fst a =? fst b) && (snd a =? snd b).
(** source/extensions/extbody.c:312-347 osl_extbody_equal *)
Definition osl_extbody_equal (a b : option extbody) : bool :=
  match a, b with
  | None, None => true
  | Some a, Some b =>
      if negb (zlength (eb_access a) =? zlength (eb_access b)) then false
      else if negb (all_found pair_eqb (eb_access a) (eb_access b)) then false
      else osl_body_equal (eb_body a) (eb_body b)
  | _, _ => false
  end.

(** ** Array names (source/extensions/arrays.c): identifier and name of each array *)
Definition arrays := list (Z * str).

(** source/extensions/arrays.c:142-171 osl_arrays_sprint *)
Definition osl_arrays_sprint (a : option arrays) : res (option str) :=
  match a with
  | None => Ok None
  | Some a =>
      l <- print_all (fun x => buf_store (print_Z (fst x) ++ [c_sp] ++ ln (snd x))) a ;;
      Ok (Some (ln (lit "# Number of arrays") ++ lnZ (zlength a)
                ++ (if zlength a =? 0 then [] else ln (lit "# Mapping array-identifiers/array-names"))
                ++ l))
  end.
Fixpoint read_arrays (n : nat) (s : str) : res (arrays * str) :=
  match n with
  | O => Ok ([], s)
  | S k =>
      '(id, s) <- osl_util_read_int_s s ;; '(name, s) <- osl_util_read_string_s s ;;
      '(l, s) <- read_arrays k s ;; Ok ((id, name) :: l, s)
  end.
(** source/extensions/arrays.c:188-219 osl_arrays_sread *)
Definition osl_arrays_sread (s : str) : res (arrays * str) :=
  '(nb, s) <- osl_util_read_int_s s ;;
  if nb <? 0 then Err else read_arrays (Z.to_nat nb) s.
(** source/extensions/arrays.c:272-290 osl_arrays_clone; the names of a table are not NULL. *)
Definition osl_arrays_clone (a : option arrays) : res (option arrays) :=
  match a with
  | None => Ok None
  | Some a =>
      l <- copy_array (fun x => match OSL_strdup (Some (snd x)) with Some n => Ok (fst x, n) | None => UB end) (zlength a) a ;;
      Ok (Some l)
  end.
Definition array_eqb (a b : Z * str) : bool := (fst a =? fst b) && str_eqb (snd a) (snd b).
(** source/extensions/arrays.c:302-337 osl_arrays_equal *)
Definition osl_arrays_equal (a b : option arrays) : bool :=
  match a, b with
  | None, None => true
  | Some a, Some b =>
      if negb (zlength a =? zlength b) then false else all_found array_eqb a b
  | _, _ => false
  end.
(** source/extensions/arrays.c:348-371 osl_arrays_to_strings *)
Definition max_id (a : arrays) : Z :=
  match a with
  | [] => 0
  | x :: tl => fold_left (fun m y => if m <? fst y then fst y else m) tl (fst x)
  end.
Fixpoint put_names (a : arrays) (l : list str) : res (list str) :=
  match a with
  | [] => Ok l
  | (id, name) :: tl => l <- aset l (id - 1) name ;; put_names tl l
  end.
Definition osl_arrays_to_strings (a : option arrays) : res (option strings) :=
  match a with
  | None => Ok None
  | Some a =>
      s <- osl_strings_generate (lit "Dummy") (max_id a) ;;
      match s, a with
      | _, [] => Ok (Some s)
      | None, _ => UB
      | Some l, _ => l <- put_names a l ;; Ok (Some (Some l))
      end
  end.
(** source/extensions/arrays.c:382-394 osl_arrays_add: the new table, and the returned number. *)
Definition osl_arrays_add (a : option arrays) (id : Z) (name : option str) : option arrays * Z :=
  match a, name with
  | Some a, Some name => (Some (a ++ [(id, name)]), zlength a + 1)
  | _, _ => (a, -1)
  end.
Fixpoint index_of (p : Z * str -> bool) (a : arrays) (i : Z) : Z :=
  match a with
  | [] => i
  | x :: tl => if p x then i else index_of p tl (i + 1)
  end.
(** source/extensions/arrays.c:404-416 osl_arrays_get_index_from_id *)
Definition osl_arrays_get_index_from_id (a : option arrays) (id : Z) : Z :=
  match a with None => 0 | Some a => index_of (fun x => fst x =? id) a 0 end.
(** source/extensions/arrays.c:426-440 osl_arrays_get_index_from_name *)
Definition osl_arrays_get_index_from_name (a : option arrays) (name : option str) : Z :=
  match a, name with
  | Some a, Some name => index_of (fun x => str_eqb (snd x) name) a 0
  | _, _ => 0
  end.

(** ** Comments (source/extensions/comment.c): the text *)
Definition comment := option str.
(** source/extensions/comment.c:138-156 osl_comment_sprint *)
Definition osl_comment_sprint (c : option comment) : res (option str) :=
  match c with None => Ok None | Some c => t <- buf_store (pr c) ;; Ok (Some t) end.
(** source/extensions/comment.c:172-191 osl_comment_sread: the caller's cursor does not move. *)
Definition osl_comment_sread (s : str) : res (comment * str) :=
  if MAX_STRING <? zlength s then Err else Ok (Some s, s).
(** source/extensions/comment.c:239-249 osl_comment_clone *)
Definition osl_comment_clone (c : option comment) : option comment :=
  match c with None => None | Some c => Some (OSL_strdup c) end.
(** source/extensions/comment.c:259-277 osl_comment_equal: the result of strcmp is ignored. *)
Definition osl_comment_equal (a b : option comment) : res bool :=
  match a, b with
  | None, None => Ok true
  | Some a, Some b => strcmp_eq a b ;;; Ok true
  | _, _ => Ok false
  end.

(** ** Textual extensions (source/extensions/textual.c) *)
Definition textual := option str.
(** source/extensions/textual.c:168-171 osl_textual_sprint, the compiled version *)
Definition osl_textual_sprint (t : option textual) : res (option str) := Ok None.
(** source/extensions/textual.c:187-200 osl_textual_sread *)
Definition osl_textual_sread (s : str) : res (textual * str) := Ok (Some s, []).
(** source/extensions/textual.c:248-258 osl_textual_clone *)
Definition osl_textual_clone (t : option textual) : option textual :=
  match t with None => None | Some t => Some (OSL_strdup t) end.
(** source/extensions/textual.c:292-296 osl_textual_equal, the compiled version *)
Definition osl_textual_equal (a b : option textual) : bool := true.

(** ** Scattering names (source/extensions/scatnames.c) *)
Definition scatnames := option strings.
(** source/extensions/scatnames.c:134-136 osl_scatnames_sprint: NULL is dereferenced. *)
Definition osl_scatnames_sprint (n : option scatnames) : res (option str) :=
  match n with None => UB | Some n => t <- osl_strings_sprint n ;; Ok (Some t) end.
(** source/extensions/scatnames.c:153-170 osl_scatnames_sread *)
Definition osl_scatnames_sread (s : str) : res (option scatnames * option str) :=
  '(n, s) <- osl_strings_sread s ;;
  match n with None => Ok (None, s) | Some n => Ok (Some (Some n), s) end.
(** source/extensions/scatnames.c:217-227 osl_scatnames_clone *)
Definition osl_scatnames_clone (n : option scatnames) : option scatnames :=
  match n with None => None | Some n => Some (osl_strings_clone n) end.
(** source/extensions/scatnames.c:237-249 osl_scatnames_equal *)
Definition osl_scatnames_equal (a b : option scatnames) : bool :=
  match a, b with
  | None, None => true
  | Some a, Some b => osl_strings_equal a b
  | _, _ => false
  end.

(** ** Source coordinates (source/extensions/coordinates.c) *)
Record coordinates := Coordinates { co_name : option str; co_line_start : Z; co_line_end : Z;
  co_column_start : Z; co_column_end : Z; co_indent : Z }.
(** source/extensions/coordinates.c:152-181 osl_coordinates_sprint *)
Definition osl_coordinates_sprint (c : option coordinates) : res (option str) :=
  match c with
  | None => Ok None
  | Some c =>
      n <- buf_store (ln (lit "# File name") ++ ln (pr (co_name c))) ;;
      Ok (Some (n
        ++ ln (lit "# Starting line and column") ++ print_Z (co_line_start c) ++ [c_sp] ++ lnZ (co_column_start c)
        ++ ln (lit "# Ending line and column") ++ print_Z (co_line_end c) ++ [c_sp] ++ lnZ (co_column_end c)
        ++ ln (lit "# Indentation") ++ lnZ (co_indent c)))
  end.
(** source/extensions/coordinates.c:197-221 osl_coordinates_sread *)
Definition osl_coordinates_sread (s : str) : res (coordinates * str) :=
  '(n, s) <- osl_util_read_line_s s ;;
  '(ls, s) <- osl_util_read_int_s s ;;
  '(cs, s) <- osl_util_read_int_s s ;;
  '(le, s) <- osl_util_read_int_s s ;;
  '(ce, s) <- osl_util_read_int_s s ;;
  '(i, s) <- osl_util_read_int_s s ;;
  Ok (Coordinates (Some n) ls le cs ce i, s).
(** source/extensions/coordinates.c:273-289 osl_coordinates_clone *)
Definition osl_coordinates_clone (c : option coordinates) : option coordinates :=
  match c with
  | None => None
  | Some c => Some (Coordinates (OSL_strdup (co_name c)) (co_line_start c) (co_line_end c) (co_column_start c)
                      (co_column_end c) (co_indent c))
  end.
(** source/extensions/coordinates.c:299-338 osl_coordinates_equal *)
Definition osl_coordinates_equal (a b : option coordinates) : res bool :=
  match a, b with
  | None, None => Ok true
  | Some a, Some b =>
      n <- strcmp_eq (co_name a) (co_name b) ;;
      Ok (n && (co_line_start a =? co_line_start b) && (co_column_start a =? co_column_start b)
            && (co_line_end a =? co_line_end b) && (co_column_end a =? co_column_end b)
            && (co_indent a =? co_indent b))
  | _, _ => Ok false
  end.

(** ** Clay scripts (source/extensions/clay.c) *)
Definition clay := option str.
(** source/extensions/clay.c:137-155 osl_clay_sprint *)
Definition osl_clay_sprint (c : option clay) : res (option str) :=
  match c with None => Ok None | Some c => t <- buf_store (pr c) ;; Ok (Some t) end.
(** source/extensions/clay.c:171-197 osl_clay_sread: leading newlines are dropped; the caller's cursor does not move. *)
Definition osl_clay_sread (s : str) : res (clay * str) :=
  if MAX_STRING <? zlength s then Err else Ok (Some (snd (span (fun c => ceqb c c_nl) s)), s).
(** source/extensions/clay.c:245-255 osl_clay_clone *)
Definition osl_clay_clone (c : option clay) : option clay :=
  match c with None => None | Some c => Some (OSL_strdup c) end.
(** source/extensions/clay.c:265-280 osl_clay_equal *)
Definition osl_clay_equal (a b : option clay) : res bool :=
  match a, b with
  | None, None => Ok true
  | Some a, Some b => strcmp_eq a b
  | _, _ => Ok false
  end.

(** ** The empty extension (source/extensions/null.c) *)
(** source/extensions/null.c:121-131 osl_null_sprint *)
Definition osl_null_sprint (n : option unit) : res (option str) :=
  match n with None => Ok None | Some _ => Ok (Some []) end.
(** source/extensions/null.c:147-162 osl_null_sread: the caller's cursor does not move. *)
Definition osl_null_sread (s : str) : res (unit * str) := Ok (tt, s).
(** source/extensions/null.c:206-214 osl_null_clone *)
Definition osl_null_clone (n : option unit) : option unit := match n with None => None | Some _ => Some tt end.
(** source/extensions/null.c:224-234 osl_null_equal *)
Definition osl_null_equal (a b : option unit) : bool :=
  match a, b with None, None | Some _, Some _ => true | _, _ => false end.

(** ** Loops (source/extensions/loop.c) *)
Definition LOOP_USER : Z := 8.   (* include/osl/extensions/loop.h:81 OSL_LOOP_DIRECTIVE_USER *)
Record loop := Loop { lo_iter : option str; lo_stmts : list Z; lo_private : option str;
                      lo_directive : Z; lo_user : option str }.
Definition user_directive (d : Z) : bool := negb (Z.land d LOOP_USER =? 0).

(** One iteration of source/extensions/loop.c:185-247 osl_loop_sprint *)
Definition loop_sprint_one (n : Z) (l : loop) : res str :=
  i <- buf_store (ln (pr (lo_iter l))) ;;
  ids <- print_all (fun v => Ok (lnZ v)) (lo_stmts l) ;;
  p <- buf_store (ln (pr (lo_private l))) ;;
  u <- (if user_directive (lo_directive l) then buf_store ([c_sp] ++ pr (lo_user l)) else Ok []) ;;
  Ok (ln (lit "# ===========================================")
      ++ lit "# Loop number " ++ print_Z n ++ ln [c_sp]
      ++ ln (lit "# Iterator name") ++ i
      ++ ln (lit "# Number of stmts") ++ lnZ (zlength (lo_stmts l))
      ++ (if zlength (lo_stmts l) =? 0 then [] else ln (lit "# Statement identifiers"))
      ++ ids
      ++ ln (lit "# Private variables") ++ p
      ++ ln (lit "# Directive") ++ print_Z (lo_directive l) ++ u ++ [c_nl]).
Fixpoint loops_sprint (n : Z) (l : list loop) : res str :=
  match l with
  | [] => Ok []
  | x :: tl => a <- loop_sprint_one n x ;; b <- loops_sprint (n + 1) tl ;; Ok (a ++ b)
  end.
(** source/extensions/loop.c:603-611 osl_loop_count *)
Definition osl_loop_count (l : list loop) : Z := zlength l.
(** source/extensions/loop.c:185-247 osl_loop_sprint *)
Definition osl_loop_sprint (l : list loop) : res (option str) :=
  t <- loops_sprint 1 l ;;
  Ok (Some (ln (lit "# Number of loops") ++ lnZ (osl_loop_count l) ++ t)).
Definition null_if_null (s : str) : option str := if str_eqb s (lit "(null)") then None else Some s.
(** One iteration of source/extensions/loop.c:264-316 osl_loop_sread; a negative number of statements is a failing allocation. *)
Definition loop_sread_one (s : str) : res (loop * str) :=
  '(i, s) <- osl_util_read_string_s s ;;
  '(nb, s) <- osl_util_read_int_s s ;;
  if nb <? 0 then Err
  else
    '(ids, s) <- read_ints (Z.to_nat nb) s ;;
    '(p, s) <- osl_util_read_line_s s ;;
    '(d, s) <- osl_util_read_int_s s ;;
    '(u, s) <- (if user_directive d
                then '(u, s) <- osl_util_read_line_s s ;; Ok (null_if_null u, s) else Ok (None, s)) ;;
    Ok (Loop (Some i) ids (null_if_null p) d u, s).
Fixpoint loops_sread (n : nat) (s : str) : res (list loop * str) :=
  match n with
  | O => Ok ([], s)
  | S k => '(l, s) <- loop_sread_one s ;; '(tl, s) <- loops_sread k s ;; Ok (l :: tl, s)
  end.
(** source/extensions/loop.c:264-316 osl_loop_sread.  Simplification: with a negative count the C loop reads on until the text is
    exhausted and the program stops with an error, here it stops at once. *)
Definition osl_loop_sread (s : str) : res (list loop * str) :=
  '(nb, s) <- osl_util_read_int_s s ;;
  if nb <? 0 then Err else loops_sread (Z.to_nat nb) s.
(** source/extensions/loop.c:383-408 osl_loop_clone_one on a node; the new node starts with NULL strings
    (source/extensions/loop.c:331-344 osl_loop_malloc). *)
Definition osl_loop_clone_one (l : loop) : res loop :=
  ids <- copy_array (fun v => Ok v) (zlength (lo_stmts l)) (lo_stmts l) ;;
  Ok (Loop (OSL_strdup (lo_iter l)) ids
        (match lo_private l with Some _ => OSL_strdup (lo_private l) | None => None end) (lo_directive l)
        (match lo_user l with Some _ => OSL_strdup (lo_user l) | None => None end)).
(** source/extensions/loop.c:418-437 osl_loop_clone *)
Fixpoint osl_loop_clone (l : list loop) : res (list loop) :=
  match l with
  | [] => Ok []
  | x :: tl => c <- osl_loop_clone_one x ;; r <- osl_loop_clone tl ;; Ok (c :: r)
  end.
(** strcmp guarded by a comparison of the pointers: two NULLs are equal, NULL and a string undefined.
    (The pointers of two different lists are different.) *)
Definition strcmp_or_same (a b : option str) : res bool :=
  match a, b with None, None => Ok true | _, _ => strcmp_eq a b end.
(** source/extensions/loop.c:450-509 osl_loop_equal_one on two different nodes *)
Definition osl_loop_equal_one (a b : loop) : res bool :=
  if negb (zlength (lo_stmts a) =? zlength (lo_stmts b)) then Ok false
  else
    i <- strcmp_eq (lo_iter a) (lo_iter b) ;;
    if negb i then Ok false
    else if negb (all_found Z.eqb (lo_stmts a) (lo_stmts b)) then Ok false
    else
      p <- strcmp_or_same (lo_private a) (lo_private b) ;;
      if negb p then Ok false
      else if negb (lo_directive a =? lo_directive b) then Ok false
      else strcmp_or_same (lo_user a) (lo_user b).
Fixpoint loop_found (a : loop) (l : list loop) : res bool :=
  match l with
  | [] => Ok false
  | x :: tl => b <- osl_loop_equal_one a x ;; if b then Ok true else loop_found a tl
  end.
Fixpoint loops_found (a b : list loop) : res bool :=
  match a with
  | [] => Ok true
  | x :: tl => f <- loop_found x b ;; if f then loops_found tl b else Ok false
  end.
(** source/extensions/loop.c:522-558 osl_loop_equal *)
Definition osl_loop_equal (a b : list loop) : res bool :=
  match a, b with
  | [], [] => Ok true
  | [], _ | _, [] => Ok false
  | _, _ => if negb (osl_loop_count a =? osl_loop_count b) then Ok false else loops_found a b
  end.
(** source/extensions/loop.c:589-594 osl_loop_add *)
Definition osl_loop_add (l ll : list loop) : list loop := ll ++ l.

(** ** Pluto unrolling (source/extensions/pluto_unroll.c) *)
Record unroll := Unroll { un_iter : option str; un_jam : bool; un_factor : Z }.
Fixpoint unrolls_text (l : list unroll) : str :=
  match l with
  | [] => []
  | u :: tl =>
      ln (lit "# Iterator name") ++ ln (pr (un_iter u))
      ++ ln (lit "# Jam") ++ lnZ (if un_jam u then 1 else 0)
      ++ ln (lit "# Factor") ++ lnZ (un_factor u)
      ++ ln (lit "# Next") ++ lnZ (match tl with [] => 0 | _ => 1 end)
      ++ unrolls_text tl
  end.
(** source/extensions/pluto_unroll.c:166-201 osl_pluto_unroll_sprint: everything is built in one buffer of OSL_MAX_STRING bytes. *)
Definition osl_pluto_unroll_sprint (l : list unroll) : res (option str) :=
  t <- buf_store (ln (lit "# Pluto unroll") ++ lnZ (match l with [] => 0 | _ => 1 end) ++ unrolls_text l) ;;
  Ok (Some t).
(** The loop of source/extensions/pluto_unroll.c:220-242 osl_pluto_unroll_sread: each iteration reads at least one character, [fuel] bounds
    their number. *)
Fixpoint unrolls_sread (fuel : nat) (s : str) : res (list unroll * str) :=
  match fuel with
  | O => OutOfFuel
  | S k =>
      '(i, s) <- osl_util_read_line_s s ;;
      '(j, s) <- osl_util_read_int_s s ;;
      '(f, s) <- osl_util_read_int_s s ;;
      '(n, s) <- osl_util_read_int_s s ;;
      let u := Unroll (Some i) (negb (j =? 0)) (f mod 2 ^ 32) in
      if n =? 1 then '(l, s) <- unrolls_sread k s ;; Ok (u :: l, s) else Ok ([u], s)
  end.
(** source/extensions/pluto_unroll.c:220-242 osl_pluto_unroll_sread *)
Definition osl_pluto_unroll_sread (s : str) : res (list unroll * str) :=
  '(n, s) <- osl_util_read_int_s s ;;
  if n =? 1 then unrolls_sread (S (List.length s)) s else Ok ([], s).
(** source/extensions/pluto_unroll.c:299-316 osl_pluto_unroll_fill on a node: the iterator is kept when the new one is NULL. *)
Definition osl_pluto_unroll_fill (u : unroll) (iter : option str) (jam : bool) (factor : Z) : unroll :=
  Unroll (match iter with Some i => Some i | None => un_iter u end) jam factor.
(** source/extensions/pluto_unroll.c:328-349 osl_pluto_unroll_clone, from the nodes of source/extensions/pluto_unroll.c:257-267 osl_pluto_unroll_malloc *)
Definition osl_pluto_unroll_clone (l : list unroll) : list unroll :=
  map (fun u => osl_pluto_unroll_fill (Unroll None false 0) (un_iter u) (un_jam u) (un_factor u)) l.
(** source/extensions/pluto_unroll.c:363-412 osl_pluto_unroll_equal *)
Definition iter_eqb (a b : option str) : bool :=
  match a, b with
  | None, None => true
  | Some a, Some b => str_eqb a b
  | _, _ => false
  end.
Definition unroll_eqb (a b : unroll) : bool :=
  iter_eqb (un_iter a) (un_iter b) && Bool.eqb (un_jam a) (un_jam b) && (un_factor a =? un_factor b).
Fixpoint osl_pluto_unroll_equal (a b : list unroll) : bool :=
  match a, b with
  | [], [] => true
  | x :: a', y :: b' => unroll_eqb x y && osl_pluto_unroll_equal a' b'
  | _, _ => false
  end.

(** ** Scattering information (source/extensions/scatinfos.c) *)
Record scatinfo := Scatinfo { si_parallel : Z; si_permutable : Z; si_type : Z }.
Definition scatinfos := list scatinfo.
(** "%d " for each dimension *)
Definition print_row (l : list Z) : str := flat_map (fun v => print_Z v ++ [c_sp]) l.
(** source/extensions/scatinfos.c:170-220 osl_scatinfos_sprint *)
Definition osl_scatinfos_sprint (i : option scatinfos) : res (option str) :=
  match i with
  | None => Ok None
  | Some i =>
      let some (s : str) := if 0 <? zlength i then s else [] in
      Ok (Some (ln (lit "# Number of scattering dimensions") ++ lnZ (zlength i)
        ++ some (ln (lit "# Parallel info")) ++ print_row (map si_parallel i)
        ++ some (c_nl :: ln (lit "# Permutable info")) ++ print_row (map si_permutable i)
        ++ some (c_nl :: ln (lit "# Type info")) ++ print_row (map si_type i)
        ++ some [c_nl]))
  end.
Fixpoint zip3 (a b c : list Z) : scatinfos :=
  match a, b, c with
  | x :: a', y :: b', z :: c' => Scatinfo x y z :: zip3 a' b' c'
  | _, _, _ => []
  end.
(** source/extensions/scatinfos.c:236-260 osl_scatinfos_sread *)
Definition osl_scatinfos_sread (s : str) : res (scatinfos * str) :=
  '(nb, s) <- osl_util_read_int_s s ;;
  if nb <? 0 then Err
  else
    '(a, s) <- read_ints (Z.to_nat nb) s ;;
    '(b, s) <- read_ints (Z.to_nat nb) s ;;
    '(c, s) <- read_ints (Z.to_nat nb) s ;;
    Ok (zip3 a b c, s).
(** source/extensions/scatinfos.c:315-337 osl_scatinfos_clone *)
Definition osl_scatinfos_clone (i : option scatinfos) : res (option scatinfos) :=
  match i with
  | None => Ok None
  | Some i =>
      a <- copy_array (fun v => Ok v) (zlength i) (map si_parallel i) ;;
      b <- copy_array (fun v => Ok v) (zlength i) (map si_permutable i) ;;
      c <- copy_array (fun v => Ok v) (zlength i) (map si_type i) ;;
      Ok (Some (zip3 a b c))
  end.
Fixpoint scatinfos_eqb (a b : scatinfos) : bool :=
  match a, b with
  | x :: a', y :: b' => (si_parallel x =? si_parallel y) && (si_permutable x =? si_permutable y)
                        && (si_type x =? si_type y) && scatinfos_eqb a' b'
  | _, _ => true
  end.
(** source/extensions/scatinfos.c:347-373 osl_scatinfos_equal *)
Definition osl_scatinfos_equal (a b : option scatinfos) : bool :=
  match a, b with
  | None, None => true
  | Some a, Some b => if negb (zlength a =? zlength b) then false else scatinfos_eqb a b
  | _, _ => false
  end.

(** ** Annotations and regions (source/extensions/annotation.c, region.c): numbered lines *)
Definition text_lines := list (Z * option str).
(** _osl_annotation_sprint_text, source/extensions/annotation.c:223-237; _osl_region_sprint_text,
    source/extensions/region.c:265-279 *)
Definition text_sprint (name : str) (l : text_lines) : res str :=
  t <- print_all (fun x => b <- buf_store (ln (pr (snd x))) ;; Ok (print_Z (fst x) ++ [c_sp] ++ b)) l ;;
  Ok (lit "# " ++ name ++ ln (lit " count ") ++ lnZ (zlength l)
      ++ lit "# " ++ name ++ ln (lit " lines (if any)") ++ t).
Fixpoint read_lines (n : nat) (s : str) : res (text_lines * str) :=
  match n with
  | O => Ok ([], s)
  | S k =>
      '(t, s) <- osl_util_read_int_s s ;; '(x, s) <- osl_util_read_line_s s ;;
      '(l, s) <- read_lines k s ;; Ok ((t, Some x) :: l, s)
  end.
(** osl_annotation_sread_text, source/extensions/annotation.c:260-268; osl_region_sread_text,
    source/extensions/region.c:314-322.  Simplification: a negative count, converted to a huge size_t, makes the C
    loop read until the text is exhausted and the program stop; here it stops at once. *)
Definition text_sread (s : str) : res (text_lines * str) :=
  '(nb, s) <- osl_util_read_int_s s ;;
  if nb <? 0 then Err else read_lines (Z.to_nat nb) s.
Fixpoint lines_equal (a b : text_lines) : res bool :=
  match a, b with
  | (t, x) :: a', (u, y) :: b' =>
      if negb (t =? u) then Ok false
      else e <- strcmp_eq x y ;; if e then lines_equal a' b' else Ok false
  | _, _ => Ok true
  end.
(** source/extensions/annotation.c:148-165 osl_annotation_text_equal, source/extensions/region.c:146-163 osl_region_text_equal *)
Definition text_equal (a b : text_lines) : res bool :=
  if negb (zlength a =? zlength b) then Ok false else lines_equal a b.
(** source/extensions/annotation.c:115-127 osl_annotation_text_clone, source/extensions/region.c:114-125 osl_region_text_clone: strdup(NULL) is undefined. *)
Definition text_clone (l : text_lines) : res text_lines :=
  mapM (fun x => match snd x with Some s => Ok (fst x, Some s) | None => UB end) l.

Record annotation := Annotation { an_prefix : text_lines; an_suffix : text_lines }.
(** source/extensions/annotation.c:212-246 osl_annotation_sprint *)
Definition osl_annotation_sprint (a : option annotation) : res (option str) :=
  match a with
  | None => UB
  | Some a =>
      p <- text_sprint (lit "Prefix") (an_prefix a) ;;
      s <- text_sprint (lit "Suffix") (an_suffix a) ;;
      Ok (Some (ln (lit "# ===========================================") ++ p ++ s))
  end.
(** source/extensions/annotation.c:252-274 osl_annotation_sread *)
Definition osl_annotation_sread (s : str) : res (annotation * str) :=
  '(p, s) <- text_sread s ;; '(q, s) <- text_sread s ;; Ok (Annotation p q, s).
(** source/extensions/annotation.c:303-310 osl_annotation_clone: NULL is dereferenced. *)
Definition osl_annotation_clone (a : option annotation) : res annotation :=
  match a with
  | None => UB
  | Some a => p <- text_clone (an_prefix a) ;; q <- text_clone (an_suffix a) ;; Ok (Annotation p q)
  end.
(** source/extensions/annotation.c:312-325 osl_annotation_equal *)
Definition osl_annotation_equal (a b : option annotation) : res bool :=
  match a, b with
  | None, None => Ok true
  | Some a, Some b =>
      p <- text_equal (an_prefix a) (an_prefix b) ;;
      if p then text_equal (an_suffix a) (an_suffix b) else Ok false
  | _, _ => Ok false
  end.

Record region := Region { re_location : Z; re_prefix : text_lines; re_suffix : text_lines;
                          re_prelude : text_lines; re_postlude : text_lines }.
(** One iteration of source/extensions/region.c:239-293 osl_region_sprint *)
Definition region_sprint_one (step count : Z) (r : region) : res str :=
  a <- text_sprint (lit "Prefix") (re_prefix r) ;;
  b <- text_sprint (lit "Suffix") (re_suffix r) ;;
  c <- text_sprint (lit "Prelude") (re_prelude r) ;;
  d <- text_sprint (lit "Postlude") (re_postlude r) ;;
  Ok (ln (lit "# ===========================================")
      ++ lit "# Region number " ++ print_Z step ++ lit " / " ++ print_Z count ++ ln [c_sp]
      ++ ln (lit "# Location ") ++ lnZ (re_location r) ++ a ++ b ++ c ++ d).
Fixpoint regions_sprint (step count : Z) (l : list region) : res str :=
  match l with
  | [] => Ok []
  | r :: tl => a <- region_sprint_one step count r ;; b <- regions_sprint (step + 1) count tl ;; Ok (a ++ b)
  end.
(** source/extensions/region.c:239-293 osl_region_sprint *)
Definition osl_region_sprint (l : list region) : res (option str) :=
  t <- regions_sprint 1 (zlength l) l ;;
  Ok (Some (ln (lit "# Number of regions") ++ lnZ (zlength l) ++ t)).
(** One iteration of source/extensions/region.c:299-336 osl_region_sread *)
Definition region_sread_one (s : str) : res (region * str) :=
  '(l, s) <- osl_util_read_int_s s ;;
  '(a, s) <- text_sread s ;; '(b, s) <- text_sread s ;;
  '(c, s) <- text_sread s ;; '(d, s) <- text_sread s ;;
  Ok (Region l a b c d, s).
Fixpoint regions_sread (n : nat) (s : str) : res (list region * str) :=
  match n with
  | O => Ok ([], s)
  | S k => '(r, s) <- region_sread_one s ;; '(l, s) <- regions_sread k s ;; Ok (r :: l, s)
  end.
(** source/extensions/region.c:299-336 osl_region_sread: a negative count gives one empty region. *)
Definition osl_region_sread (s : str) : res (list region * str) :=
  '(nb, s) <- osl_util_read_int_s s ;;
  if nb <? 0 then Ok ([Region 0 [] [] [] []], s) else regions_sread (Z.to_nat nb) s.
(** source/extensions/region.c:395-412 osl_region_clone *)
Definition osl_region_clone (l : list region) : res (list region) :=
  mapM (fun r => a <- text_clone (re_prefix r) ;; b <- text_clone (re_suffix r) ;;
                 c <- text_clone (re_prelude r) ;; d <- text_clone (re_postlude r) ;;
                 Ok (Region (re_location r) a b c d)) l.
(** source/extensions/region.c:414-429 osl_region_equal_one on two nodes *)
Definition osl_region_equal_one (x y : region) : res bool :=
  if negb (re_location x =? re_location y) then Ok false
  else
    a <- text_equal (re_prefix x) (re_prefix y) ;;
    if negb a then Ok false else
    b <- text_equal (re_suffix x) (re_suffix y) ;;
    if negb b then Ok false else
    c <- text_equal (re_prelude x) (re_prelude y) ;;
    if negb c then Ok false else text_equal (re_postlude x) (re_postlude y).
(** source/extensions/region.c:431-438 osl_region_equal on two different lists: the end of both lists is dereferenced
    (osl_region_equal_one(NULL, NULL) is true). *)
Fixpoint osl_region_equal (a b : list region) : res bool :=
  match a, b with
  | [], [] => UB
  | x :: a', y :: b' => e <- osl_region_equal_one x y ;; if e then osl_region_equal a' b' else Ok false
  | _, _ => Ok false
  end.

(** ** Dependences (source/extensions/dependence.c).  The pointers to the statements and to the access
    relations are left out (they are not printed, not cloned deeply, not compared). *)
Record dependence := Dependence { de_label_source : Z; de_label_target : Z; de_ref_source : Z; de_ref_target : Z;
  de_depth : Z; de_type : Z; de_domain : list relation; de_dims : list Z }.
(** [de_dims]: source_nb_output_dims_domain, source_nb_output_dims_access, target_nb_output_dims_domain,
    target_nb_output_dims_access, then the same four for local dims. *)

Section DEPENDENCE.
Context {cfg : config}.

(** include/osl/extensions/dependence.h:77-81 *)
Definition dep_type_string (t : Z) : res str :=
  if t =? UNDEFINED then Ok (lit "UNSET")
  else if t =? 1 then Ok (lit "RAW #(flow)")
  else if t =? 2 then Ok (lit "WAR #(anti)")
  else if t =? 3 then Ok (lit "WAW #(output)")
  else if t =? 4 then Ok (lit "RAR #(input)")
  else if t =? 5 then Ok (lit "RAW_SCALPRIV #(scalar priv)")
  else Err.
Fixpoint print_spaced (l : list Z) : str :=
  match l with
  | [] => []
  | [x] => print_Z x
  | x :: tl => print_Z x ++ [c_sp] ++ print_spaced tl
  end.
(** One iteration of source/extensions/dependence.c:248-329 osl_dependence_sprint; the two snprintf cannot be truncated (their texts are
    shorter than 500 characters) but are modelled as such. *)
Definition dependence_sprint_one (n : Z) (d : dependence) : res str :=
  t <- dep_type_string (de_type d) ;;
  r <- osl_relation_sprint (de_domain d) ;;
  Ok (snp (lit "# Description of dependence " ++ lnZ n
           ++ ln (lit "# type") ++ ln t
           ++ ln (lit "# From source statement id") ++ lnZ (de_label_source d)
           ++ ln (lit "# To target statement id") ++ lnZ (de_label_target d)
           ++ ln (lit "# Depth ") ++ lnZ (de_depth d)
           ++ ln (lit "# From source access ref") ++ lnZ (de_ref_source d)
           ++ ln (lit "# To target access ref") ++ lnZ (de_ref_target d))
      ++ snp (ln (lit "# Dimension information")
              ++ ln (lit "# 1 src-out-dom, 2 src-out-acc, 3 tgt-out-dom, 4 tgt-out-acc")
              ++ ln (lit "# 5 src-loc-dom, 6 src-loc-acc, 7 tgt-loc-dom, 8 tgt-loc-acc")
              ++ ln (print_spaced (de_dims d))
              ++ ln (lit "# Dependence domain"))
      ++ r).
Fixpoint dependences_sprint (n : Z) (l : list dependence) : res str :=
  match l with
  | [] => Ok []
  | d :: tl => a <- dependence_sprint_one n d ;; b <- dependences_sprint (n + 1) tl ;; Ok (a ++ b)
  end.
(** source/extensions/dependence.c:248-329 osl_dependence_sprint *)
Definition osl_dependence_sprint (l : list dependence) : res (option str) :=
  t <- dependences_sprint 1 l ;;
  Ok (Some (ln (lit "# Number of dependences") ++ lnZ (zlength l) ++ t)).
Definition dep_type_of (s : str) : Z :=
  if str_eqb s (lit "RAW") then 1
  else if str_eqb s (lit "RAR") then 4
  else if str_eqb s (lit "WAR") then 2
  else if str_eqb s (lit "WAW") then 3
  else if str_eqb s (lit "RAW_SCALPRIV") then 5
  else UNDEFINED.
(** source/extensions/dependence.c:335-401 osl_dependence_read_one_dep *)
Definition osl_dependence_read_one_dep (s : str) (p : Z) : res (dependence * str) :=
  '(t, s) <- osl_util_read_string_s s ;;
  '(ls, s) <- osl_util_read_int_s s ;;
  '(lt, s) <- osl_util_read_int_s s ;;
  '(dp, s) <- osl_util_read_int_s s ;;
  '(rs, s) <- osl_util_read_int_s s ;;
  '(rt, s) <- osl_util_read_int_s s ;;
  s <- osl_util_sskip_blank_and_comments s ;;
  let '(line, s) := span (fun c => negb (ceqb c c_nl)) s in
  line <- buf_store line ;;
  dims <- scan_ints 8 line ;;
  if negb (zlength dims =? 8) then Err
  else
    '(dom, s) <- osl_relation_psread s p ;;
    Ok (Dependence ls lt rs rt dp (dep_type_of t) dom dims, s).
Fixpoint dependences_sread (n : nat) (s : str) (p : Z) : res (list dependence * str) :=
  match n with
  | O => Ok ([], s)
  | S k =>
      '(d, s) <- osl_dependence_read_one_dep s p ;;
      '(l, s) <- dependences_sread k s p ;; Ok (d :: l, s)
  end.
(** source/extensions/dependence.c:416-441 osl_dependence_psread *)
Definition osl_dependence_psread (s : str) (p : Z) : res (list dependence * str) :=
  '(nb, s) <- osl_util_read_int_s s ;; dependences_sread (Z.to_nat nb) s p.
(** source/extensions/dependence.c:407-410 osl_dependence_sread *)
Definition osl_dependence_sread (env : option str) (s : str) : res (list dependence * str) :=
  osl_dependence_psread s (osl_util_get_precision env).
(** source/extensions/dependence.c:513-554 osl_dependence_nclone, source/extensions/dependence.c:563-565 osl_dependence_clone *)
Definition osl_dependence_clone (l : list dependence) : res (list dependence) :=
  mapM (fun d => u <- osl_relation_clone (de_domain d) ;;
          Ok (Dependence (de_label_source d) (de_label_target d) (de_ref_source d) (de_ref_target d)
                (de_depth d) (de_type d) u (de_dims d))) l.
Definition dims_eqb (a b : list Z) : bool := (zlength a =? zlength b) && forallb (fun x => fst x =? snd x) (combine a b).
(** source/extensions/dependence.c:576-615 osl_dependence_equal on two different lists: a NULL list against a non-empty one is dereferenced. *)
Fixpoint osl_dependence_equal (a b : list dependence) : res bool :=
  match a, b with
  | [], [] => Ok true
  | x :: a', y :: b' =>
      next <- match a', b' with
              | [], [] => Ok true
              | [], _ | _, [] => Ok false
              | _, _ => osl_dependence_equal a' b'
              end ;;
      if negb next then Ok false
      else
        d <- osl_relation_equal (de_domain x) (de_domain y) ;;
        if negb d then Ok false
        else Ok ((de_label_source x =? de_label_source y) && (de_label_target x =? de_label_target y)
                 && (de_ref_source x =? de_ref_source y) && (de_ref_target x =? de_ref_target y)
                 && (de_depth x =? de_depth y) && (de_type x =? de_type y) && dims_eqb (de_dims x) (de_dims y))
  | _, _ => UB
  end.
(** source/extensions/dependence.c:649-657 osl_nb_dependences *)
Fixpoint dependences_count (l : list dependence) (n : Z) : Z := match l with [] => n | _ :: tl => dependences_count tl (n + 1) end.
Definition osl_nb_dependences (l : list dependence) : Z := dependences_count l 0.
(** source/extensions/dependence.c:626-640 osl_dependence_add: the list from [*start] on and the index of [*now] in it; what followed [*now] is no
    longer reachable from [*start]. *)
Definition osl_dependence_add (start : list dependence) (now : Z) (d : list dependence) : list dependence * Z :=
  match d with
  | [] => (start, now)
  | _ => match start with
         | [] => (d, zlength d - 1)
         | _ => (firstn (Z.to_nat (now + 1)) start ++ d, now + zlength d)
         end
  end.

End DEPENDENCE.
