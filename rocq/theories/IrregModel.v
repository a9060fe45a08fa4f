(** * IrregModel: source/extensions/irregular.c, the extension of irregular programs

    The extension is not in the default registry (source/interface.c:390 is commented out): users register it themselves.
    Arrays are lists; nb_statements, nb_predicates[i] and nb_iterators[i] are the lengths of the corresponding arrays, while
    nb_control and nb_exit are kept as fields: the arrays of iterators and bodies hold the controls, then the exits.
    The pointers are not NULL. *)
From Verif Require Import Base IntModel UtilModel ExtModel.

Record predicate := Predicate { pd_iterators : list (option str); pd_body : option str }.
(** include/osl/extensions/irregular.h:86-104 osl_irregular_t *)
Record irregular := Irregular { ir_statements : list (list Z); ir_control : Z; ir_exit : Z; ir_predicates : list predicate }.

(** source/extensions/irregular.c:343-357 osl_irregular_malloc *)
Definition osl_irregular_malloc : irregular := Irregular [] 0 0 [].

(** ** Printing *)
(** The local buffer of osl_irregular_sprint: its size and what was printed in it. *)
Record pbuf := Pbuf { pb_size : Z; pb_text : str }.
(** source/extensions/irregular.c:150-172 printf_in_buf.  When the text does not fit the buffer is enlarged and vsnprintf is
    called again with the same va_list, which is undefined once arguments were taken from it ([args]). *)
Fixpoint printf_in_buf (fuel : nat) (args : bool) (b : pbuf) (t : str) : res pbuf :=
  match fuel with
  | O => OutOfFuel
  | S k => if zlength t <? pb_size b - zlength (pb_text b) then Ok (Pbuf (pb_size b) (pb_text b ++ t))
           else if args then UB else printf_in_buf k args (Pbuf (pb_size b * 2) (pb_text b)) t
  end.
(** A format with arguments, and the format "\n". *)
Definition put (b : pbuf) (t : str) : res pbuf := printf_in_buf 1 true b t.
Definition put_newline (b : pbuf) : res pbuf := printf_in_buf 2 false b [c_nl].
Fixpoint puts (l : list str) (b : pbuf) : res pbuf :=
  match l with [] => Ok b | t :: tl => b <- put b t ;; puts tl b end.
(** "%d " *)
Definition num (v : Z) : str := print_Z v ++ [c_sp].
Definition print_statement (l : list Z) (b : pbuf) : res pbuf :=
  b <- put b (num (zlength l)) ;; b <- puts (map num l) b ;; put_newline b.
Definition print_predicate (x : predicate) (b : pbuf) : res pbuf :=
  b <- put b (num (zlength (pd_iterators x))) ;;
  b <- puts (map (fun i => pr i ++ [c_sp]) (pd_iterators x)) b ;;
  put b (c_nl :: pr (pd_body x) ++ [c_nl]).
Fixpoint print_statements (l : list (list Z)) (b : pbuf) : res pbuf :=
  match l with [] => Ok b | x :: tl => b <- print_statement x b ;; print_statements tl b end.
(** source/extensions/irregular.c:182-247 osl_irregular_sprint *)
Definition osl_irregular_sprint (x : option irregular) : res (option str) :=
  match x with
  | None => Ok None
  | Some x =>
      b <- put (Pbuf 2048 []) (c_nl :: print_Z (zlength (ir_statements x)) ++ [c_nl]) ;;
      b <- print_statements (ir_statements x) b ;;
      b <- put b (lnZ (ir_control x)) ;;
      b <- put b (lnZ (ir_exit x)) ;;
      b <- cfor 0 (ir_control x) (fun i b => y <- aget (ir_predicates x) i ;; print_predicate y b) b ;;
      b <- cfor 0 (ir_exit x) (fun i b => y <- aget (ir_predicates x) (ir_control x + i) ;; print_predicate y b) b ;;
      Ok (Some (lit "<irregular>" ++ pb_text b ++ ln (lit "</irregular>")))
  end.

(** ** Reading *)
(** strtok(NULL, delimiters): the next token, [None] for NULL, and the rest; the delimiter that ends the token is consumed. *)
Definition strtok (delim : ascii -> bool) (s : str) : option str * str :=
  let s := snd (span delim s) in
  match span (fun c => negb (delim c)) s with
  | ([], r) => (None, r)
  | (t, r) => (Some t, tl r)
  end.
Definition by_words (c : ascii) : bool := ceqb c c_sp || ceqb c c_nl.
Definition by_lines (c : ascii) : bool := ceqb c c_nl.
(** atoi: a text that is no number gives 0, NULL and a number out of range are undefined. *)
Definition atoi (o : option str) : res Z :=
  match o with
  | None => UB
  | Some t => match scan_Z t with
              | Some (Some (v, _)) => if fits 32 v then Ok v else UB
              | _ => Ok 0
              end
  end.
Definition next_int (s : str) : res (Z * str) := let '(o, s) := strtok by_words s in v <- atoi o ;; Ok (v, s).
(** malloc of a negative number of elements fails and stops the program. *)
Definition next_count (s : str) : res (nat * str) := '(v, s) <- next_int s ;; if v <? 0 then Err else Ok (Z.to_nat v, s).
Fixpoint next_ints (n : nat) (s : str) : res (list Z * str) :=
  match n with O => Ok ([], s) | S k => '(v, s) <- next_int s ;; '(l, s) <- next_ints k s ;; Ok (v :: l, s) end.
Fixpoint next_statements (n : nat) (s : str) : res (list (list Z) * str) :=
  match n with
  | O => Ok ([], s)
  | S k => '(m, s) <- next_count s ;; '(x, s) <- next_ints m s ;; '(l, s) <- next_statements k s ;; Ok (x :: l, s)
  end.
(** OSL_strdup(destination, strtok(NULL, delimiters)): the macro (include/osl/macros.h:164-173) evaluates its second argument
    twice, so the copy is that of the second token; osl_util_strdup(NULL) is undefined. *)
Definition strdup_strtok (delim : ascii -> bool) (s : str) : res (option str * str) :=
  match strtok delim s with
  | (None, s) => Ok (None, s)
  | (Some _, s) => match strtok delim s with
                   | (None, _) => UB
                   | (Some t, s) => Ok (Some t, s)
                   end
  end.
Fixpoint next_iterators (n : nat) (s : str) : res (list (option str) * str) :=
  match n with
  | O => Ok ([], s)
  | S k => '(x, s) <- strdup_strtok by_words s ;; '(l, s) <- next_iterators k s ;; Ok (x :: l, s)
  end.
Fixpoint next_predicates (n : nat) (s : str) : res (list predicate * str) :=
  match n with
  | O => Ok ([], s)
  | S k => '(m, s) <- next_count s ;; '(i, s) <- next_iterators m s ;; '(b, s) <- strdup_strtok by_lines s ;;
           '(l, s) <- next_predicates k s ;; Ok (Predicate i b :: l, s)
  end.
(** source/extensions/irregular.c:261-329 osl_irregular_sread; [None] is a NULL string. *)
Definition osl_irregular_sread (s : option str) : res (option irregular) :=
  match s with
  | None => Ok None
  | Some s =>
      if 2048 <? zlength s then Err
      else
        '(n, s) <- next_count s ;; '(l, s) <- next_statements n s ;;
        '(c, s) <- next_int s ;; '(e, s) <- next_int s ;;
        if negb (fits 32 (c + e)) then UB
        else if c + e <? 0 then Err
        else '(p, s) <- next_predicates (Z.to_nat (c + e)) s ;; Ok (Some (Irregular l c e p))
  end.

(** ** Copies *)
(** Elements of an array built one after the other. *)
Fixpoint build {A} (n : nat) (lo : Z) (f : Z -> res A) : res (list A) :=
  match n with O => Ok [] | S k => x <- f lo ;; l <- build k (lo + 1) f ;; Ok (x :: l) end.
Definition brange {A} (lo hi : Z) (f : Z -> res A) : res (list A) := build (Z.to_nat (hi - lo)) lo f.
Definition copy_ints (l : list Z) : res (list Z) := brange 0 (zlength l) (aget l).
Definition copy_predicate (x : predicate) : res predicate :=
  i <- brange 0 (zlength (pd_iterators x)) (fun j => s <- aget (pd_iterators x) j ;; Ok (OSL_strdup s)) ;;
  Ok (Predicate i (OSL_strdup (pd_body x))).
Definition copy_statements (x : irregular) : res (list (list Z)) :=
  brange 0 (zlength (ir_statements x)) (fun i => l <- aget (ir_statements x) i ;; copy_ints l).
(** source/extensions/irregular.c:405-466 osl_irregular_clone: for each predicate the body is copied into iterators[i][j] with j =
    nb_iterators[i], outside the array, and body[i] is never set. *)
Definition clone_predicate (x : predicate) : res predicate :=
  i <- brange 0 (zlength (pd_iterators x)) (fun j => s <- aget (pd_iterators x) j ;; Ok (OSL_strdup s)) ;;
  i <- aset i (zlength (pd_iterators x)) (OSL_strdup (pd_body x)) ;;
  Ok (Predicate i None).
Definition osl_irregular_clone (x : option irregular) : res (option irregular) :=
  match x with
  | None => Ok None
  | Some x =>
      s <- copy_statements x ;;
      p <- brange 0 (ir_control x + ir_exit x) (fun i => y <- aget (ir_predicates x) i ;; clone_predicate y) ;;
      Ok (Some (Irregular s (ir_control x) (ir_exit x) p))
  end.

(** ** Comparison *)
(** strcmp: the difference of the first characters that differ (as in glibc); NULL is undefined. *)
Fixpoint strcmp (a b : str) : Z :=
  match a, b with
  | [], [] => 0
  | c :: _, [] => Z.of_nat (nat_of_ascii c)
  | [], d :: _ => - Z.of_nat (nat_of_ascii d)
  | c :: a', d :: b' => if ceqb c d then strcmp a' b' else Z.of_nat (nat_of_ascii c) - Z.of_nat (nat_of_ascii d)
  end.
Definition strcmp_ptr (a b : option str) : res Z :=
  match a, b with Some a, Some b => Ok (strcmp a b) | _, _ => UB end.
(** source/extensions/irregular.c:476-510 osl_irregular_equal on two structures that are not NULL (other than a structure and itself) *)
Definition osl_irregular_equal (x y : irregular) : res bool :=
  if negb (zlength (ir_statements x) =? zlength (ir_statements y)) || negb (ir_control x =? ir_control y) ||
     negb (ir_exit x =? ir_exit y) then Ok false
  else
    same <- cforall 0 (zlength (ir_statements x)) (fun i =>
      a <- aget (ir_statements x) i ;; b <- aget (ir_statements y) i ;; Ok (zlength a =? zlength b)) ;;
    if negb same then Ok false
    else cforall 0 (ir_control x + ir_exit x) (fun i =>
      a <- aget (ir_predicates x) i ;; b <- aget (ir_predicates y) i ;;
      c <- strcmp_ptr (pd_body a) (pd_body b) ;;
      let comp := (if zlength (pd_iterators a) =? zlength (pd_iterators b) then 0 else 1) + c in
      if negb (comp =? 0) then Ok false
      else cforall 0 (zlength (pd_iterators a)) (fun j =>
        s <- aget (pd_iterators a) j ;; t <- aget (pd_iterators b) j ;; d <- strcmp_ptr s t ;; Ok (d =? 0))).

(** ** Additions: a new structure, the old one is not changed *)
(** source/extensions/irregular.c:512-587 osl_irregular_add_control *)
Definition osl_irregular_add_control (x : irregular) (iterators : list str) (body : str) : res irregular :=
  let nb_control := ir_control x + 1 in
  let nb_predicates := nb_control + ir_exit x in
  c <- brange 0 (ir_control x) (fun i => y <- aget (ir_predicates x) i ;; copy_predicate y) ;;
  e <- brange nb_control nb_predicates (fun i => y <- aget (ir_predicates x) (i - 1) ;; copy_predicate y) ;;
  s <- copy_statements x ;;
  Ok (Irregular s nb_control (ir_exit x) (c ++ Predicate (map Some iterators) (Some body) :: e)).
(** source/extensions/irregular.c:589-652 osl_irregular_add_exit *)
Definition osl_irregular_add_exit (x : irregular) (iterators : list str) (body : str) : res irregular :=
  let nb_exit := ir_exit x + 1 in
  let nb_predicates := ir_control x + nb_exit in
  p <- brange 0 (nb_predicates - 1) (fun i => y <- aget (ir_predicates x) i ;; copy_predicate y) ;;
  s <- copy_statements x ;;
  Ok (Irregular s (ir_control x) nb_exit (p ++ [Predicate (map Some iterators) (Some body)])).
(** source/extensions/irregular.c:654-716 osl_irregular_add_predicates *)
Definition osl_irregular_add_predicates (x : irregular) (predicates : list Z) : res irregular :=
  p <- brange 0 (ir_control x + ir_exit x) (fun i => y <- aget (ir_predicates x) i ;; copy_predicate y) ;;
  s <- copy_statements x ;;
  Ok (Irregular (s ++ [predicates]) (ir_control x) (ir_exit x) p).
