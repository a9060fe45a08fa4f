(** * PayloadModel: strings, vectors and extension data as programs on the heap

    The functions of strings.c, vector.c, body.c and the extensions that allocate, copy, grow or
    free: every string, array and structure is a block of its own.  An array is a list of elements,
    indeterminate until written; accesses outside of it, or to an indeterminate element, are [UB].

    Simplifications: the fields of a structure just allocated are given the values that are
    assigned next; the usr field and the (borrowed) pointers to statements and accesses of a
    dependence are left out; reading the contents of a string is one step. *)
From stdpp Require Import gmap.
From Verif Require Import Base IntModel VectorModel RelationModel HeapModel HeapObjects.

Section PAYLOAD.
Context {cfg : config} {al : Allocator obj}.

(** ** Blocks *)
Definition get_block (p : ptr) : oprog block :=
  c <== load p ;; match c with CBlock b => ret b | _ => lift UB end.
Definition put (p : ptr) (b : block) : oprog unit := store p (CBlock b).
Definition malloc (b : block) : oprog ptr := alloc (CBlock b).
Definition get_str (p : ptr) : oprog str :=
  b <== get_block p ;; match b with BStr s => ret s | _ => lift UB end.
Definition get_ptrs (p : ptr) : oprog (list (option ptr)) :=
  b <== get_block p ;; match b with BPtrs l => ret l | _ => lift UB end.
Definition get_ints (p : ptr) : oprog (list (option Z)) :=
  b <== get_block p ;; match b with BInts l => ret l | _ => lift UB end.
(** [a[i]] and [a[i] = x] *)
Definition ptr_at (a : ptr) (i : nat) : oprog ptr :=
  l <== get_ptrs a ;; match l !! i with Some (Some x) => ret x | _ => lift UB end.
Definition set_ptr (a : ptr) (i : nat) (x : ptr) : oprog unit :=
  l <== get_ptrs a ;; if (i <? List.length l)%nat then put a (BPtrs (<[i := Some x]> l)) else lift UB.
Definition int_at (a : ptr) (i : nat) : oprog Z :=
  l <== get_ints a ;; match l !! i with Some (Some x) => ret x | _ => lift UB end.
Definition set_int (a : ptr) (i : nat) (x : Z) : oprog unit :=
  l <== get_ints a ;; if (i <? List.length l)%nat then put a (BInts (<[i := Some x]> l)) else lift UB.
(** malloc of [n] elements *)
Definition new_ptrs (n : nat) : oprog ptr := malloc (BPtrs (repeat None n)).
Definition new_ints (n : nat) : oprog ptr := malloc (BInts (repeat None n)).
(** realloc to [n] elements, [n > 0] (include/osl/macros.h:158-162 OSL_realloc): the old elements
    are kept, the block may move. *)
Definition resize {A} (l : list (option A)) (n : nat) : list (option A) := firstn n (l ++ repeat None n).
Definition realloc_ptrs (a : ptr) (n : nat) : oprog ptr :=
  if isnull a then new_ptrs n else l <== get_ptrs a ;; free a ;;== malloc (BPtrs (resize l n)).
Definition realloc_ints (a : ptr) (n : nat) : oprog ptr :=
  if isnull a then new_ints n else l <== get_ints a ;; free a ;;== malloc (BInts (resize l n)).
(** [for (i = 0; i < n; i++)] *)
Fixpoint pfor (k i : nat) (f : nat → oprog unit) : oprog unit :=
  match k with O => ret tt | S k' => f i ;;== pfor k' (S i) f end.
(** source/util.c:478-485 osl_util_strdup *)
Definition strdup_p (p : ptr) : oprog ptr := s <== get_str p ;; malloc (BStr s).
(** include/osl/macros.h:164-173 OSL_strdup *)
Definition OSL_strdup_p (p : ptr) : oprog ptr := if isnull p then ret NULL else strdup_p p.

(** ** Vectors *)
Definition get_vector (p : ptr) : oprog (Z * Z * ptr) :=
  b <== get_block p ;; match b with BVector n pr v => ret (n, pr, v) | _ => lift UB end.
(** source/vector.c:148-163 osl_vector_pmalloc *)
Definition osl_vector_pmalloc_p (precision : Z) (size : nat) : oprog ptr :=
  vector <== malloc (BVector (Z.of_nat size) precision NULL) ;;
  if (size =? 0)%nat then ret vector
  else v <== new_ints size ;;
       put vector (BVector (Z.of_nat size) precision v) ;;==
       pfor size 0 (λ i, x <== lift (osl_int_init_set_si precision 0) ;; set_int v i x) ;;==
       ret vector.
(** source/vector.c:185-196 osl_vector_free; osl_int_clear releases nothing in fixed precision, and
    what the coefficient itself owns in GMP. *)
Definition osl_vector_free_p (vector : ptr) : oprog unit :=
  if isnull vector then ret tt
  else '(n, _, v) <== get_vector vector ;;
       (if isnull v then ret tt else pfor (Z.to_nat n) 0 (λ i, int_at v i ;;== ret tt) ;;== free v) ;;==
       free vector.
(** source/vector.c:240-254 osl_vector_add *)
Definition osl_vector_add_p (v1 v2 : ptr) : oprog ptr :=
  if isnull v1 || isnull v2 then lift Err
  else '(n1, p1, a1) <== get_vector v1 ;; '(n2, p2, a2) <== get_vector v2 ;;
       if negb (n1 =? n2) || negb (p1 =? p2) then lift Err
       else v3 <== osl_vector_pmalloc_p p1 (Z.to_nat n1) ;;
            '(_, _, a3) <== get_vector v3 ;;
            pfor (Z.to_nat n1) 0 (λ i, x <== int_at a1 i ;; y <== int_at a2 i ;;
                                       z <== lift (osl_int_add p1 x y) ;; set_int a3 i z) ;;==
            ret v3.

(** ** Strings *)
Definition get_strings (p : ptr) : oprog ptr :=
  b <== get_block p ;; match b with BStrings a => ret a | _ => lift UB end.
(** source/strings.c:271-279 osl_strings_malloc *)
Definition osl_strings_malloc_p : oprog ptr :=
  strings <== malloc (BStrings NULL) ;;
  a <== new_ptrs 1 ;;
  put strings (BStrings a) ;;==
  set_ptr a 0 NULL ;;==
  ret strings.
(** [while (a[i] != NULL) i++]; reading past the end is undefined, so that the number of elements
    bounds the number of iterations. *)
Fixpoint count_from (fuel : nat) (a : ptr) (i : nat) : oprog nat :=
  match fuel with
  | O => lift OutOfFuel
  | S f => x <== ptr_at a i ;; if isnull x then ret i else count_from f a (S i)
  end.
(** source/strings.c:398-408 osl_strings_size *)
Definition osl_strings_size_p (strings : ptr) : oprog nat :=
  if isnull strings then ret O
  else a <== get_strings strings ;;
       if isnull a then ret O else l <== get_ptrs a ;; count_from (S (List.length l)) a 0.
Fixpoint free_from (fuel : nat) (a : ptr) (i : nat) : oprog unit :=
  match fuel with
  | O => lift OutOfFuel
  | S f => x <== ptr_at a i ;; if isnull x then ret tt else free x ;;== free_from f a (S i)
  end.
(** source/strings.c:286-300 osl_strings_free *)
Definition osl_strings_free_p (strings : ptr) : oprog unit :=
  if isnull strings then ret tt
  else a <== get_strings strings ;;
       (if isnull a then ret tt
        else l <== get_ptrs a ;; free_from (S (List.length l)) a 0 ;;== free a) ;;==
       free strings.
(** source/strings.c:313-331 osl_strings_clone *)
Definition osl_strings_clone_p (strings : ptr) : oprog ptr :=
  if isnull strings then ret NULL
  else clone <== osl_strings_malloc_p ;;
       nb_strings <== osl_strings_size_p strings ;;
       if (nb_strings =? 0)%nat then ret clone
       else a <== get_strings clone ;;
            free a ;;==
            b <== new_ptrs (nb_strings + 1) ;;
            put clone (BStrings b) ;;==
            set_ptr b nb_strings NULL ;;==
            pfor nb_strings 0 (λ i, src <== get_strings strings ;; x <== ptr_at src i ;;
                                    y <== OSL_strdup_p x ;; set_ptr b i y) ;;==
            ret clone.
(** source/strings.c:357-363 osl_strings_add *)
Definition osl_strings_add_p (strings string : ptr) : oprog unit :=
  original_size <== osl_strings_size_p strings ;;
  a <== get_strings strings ;;
  b <== realloc_ptrs a (original_size + 2) ;;
  put strings (BStrings b) ;;==
  set_ptr b (original_size + 1) NULL ;;==
  y <== strdup_p string ;;
  set_ptr b original_size y.
(** source/strings.c:417-425 osl_strings_encapsulate *)
Definition osl_strings_encapsulate_p (string : ptr) : oprog ptr :=
  capsule <== osl_strings_malloc_p ;;
  a <== get_strings capsule ;;
  free a ;;==
  b <== new_ptrs 2 ;;
  put capsule (BStrings b) ;;==
  set_ptr b 0 string ;;==
  set_ptr b 1 NULL ;;==
  ret capsule.
(** source/strings.c:457-479 osl_strings_generate, for a count that is not negative *)
Definition osl_strings_generate_p (prefix : str) (nb_strings : nat) : oprog ptr :=
  strings <== (if (nb_strings =? 0)%nat then ret NULL
               else b <== new_ptrs (nb_strings + 1) ;;
                    set_ptr b nb_strings NULL ;;==
                    pfor nb_strings 0 (λ i, y <== malloc (BStr (prefix ++ print_Z (Z.of_nat i + 1))) ;; set_ptr b i y) ;;==
                    ret b) ;;
  generated <== osl_strings_malloc_p ;;
  a <== get_strings generated ;;
  free a ;;==
  put generated (BStrings strings) ;;==
  ret generated.
Fixpoint add_from (fuel : nat) (res str2 : ptr) (i : nat) : oprog unit :=
  match fuel with
  | O => lift OutOfFuel
  | S f => a <== get_strings str2 ;; x <== ptr_at a i ;;
           if isnull x then ret tt else osl_strings_add_p res x ;;== add_from f res str2 (S i)
  end.
(** source/strings.c:488-501 osl_strings_add_strings: the new value of [*dest] *)
Definition osl_strings_add_strings_p (str1 str2 : ptr) : oprog ptr :=
  res <== osl_strings_clone_p str1 ;;
  a <== get_strings str2 ;;
  l <== get_ptrs a ;;
  add_from (S (List.length l)) res str2 0 ;;==
  ret res.

(** ** Bodies *)
Definition get_body (p : ptr) : oprog (ptr * ptr) :=
  b <== get_block p ;; match b with BBody i e => ret (i, e) | _ => lift UB end.
(** source/body.c:278-286 osl_body_malloc *)
Definition osl_body_malloc_p : oprog ptr := malloc (BBody NULL NULL).
(** source/body.c:294-300 osl_body_free *)
Definition osl_body_free_p (body : ptr) : oprog unit :=
  if isnull body then ret tt
  else '(i, e) <== get_body body ;;
       osl_strings_free_p i ;;== osl_strings_free_p e ;;== free body.
(** source/body.c:314-324 osl_body_clone *)
Definition osl_body_clone_p (body : ptr) : oprog ptr :=
  if isnull body then ret NULL
  else copy <== osl_body_malloc_p ;;
       '(i, e) <== get_body body ;;
       i' <== osl_strings_clone_p i ;; put copy (BBody i' NULL) ;;==
       e' <== osl_strings_clone_p e ;; put copy (BBody i' e') ;;==
       ret copy.

(** ** Extended bodies *)
Definition get_extbody (p : ptr) : oprog (Z * ptr * ptr * ptr) :=
  b <== get_block p ;; match b with BExtbody n s l b => ret (n, s, l, b) | _ => lift UB end.
(** source/extensions/extbody.c:243-253 osl_extbody_malloc *)
Definition osl_extbody_malloc_p : oprog ptr := malloc (BExtbody 0 NULL NULL NULL).
(** source/extensions/extbody.c:260-267 osl_extbody_free *)
Definition osl_extbody_free_p (ebody : ptr) : oprog unit :=
  if isnull ebody then ret tt
  else '(_, s, l, b) <== get_extbody ebody ;;
       free s ;;== free l ;;== osl_body_free_p b ;;== free ebody.
(** source/extensions/extbody.c:280-300 osl_extbody_clone *)
Definition osl_extbody_clone_p (ebody : ptr) : oprog ptr :=
  if isnull ebody then ret NULL
  else clone <== osl_extbody_malloc_p ;;
       '(n, s, l, b) <== get_extbody ebody ;;
       s' <== new_ints (Z.to_nat n) ;;
       l' <== new_ints (Z.to_nat n) ;;
       put clone (BExtbody n s' l' NULL) ;;==
       pfor (Z.to_nat n) 0 (λ i, x <== int_at s i ;; set_int s' i x ;;== y <== int_at l i ;; set_int l' i y) ;;==
       b' <== osl_body_clone_p b ;;
       put clone (BExtbody n s' l' b') ;;==
       ret clone.
(** source/extensions/extbody.c:374-382 osl_extbody_add *)
Definition osl_extbody_add_p (ebody : ptr) (start length : Z) : oprog unit :=
  '(n, s, l, b) <== get_extbody ebody ;;
  s' <== realloc_ints s (Z.to_nat (n + 1)) ;;
  put ebody (BExtbody (n + 1) s' l b) ;;==
  l' <== realloc_ints l (Z.to_nat (n + 1)) ;;
  put ebody (BExtbody (n + 1) s' l' b) ;;==
  set_int s' (Z.to_nat n) start ;;==
  set_int l' (Z.to_nat n) length.

(** ** Tables of arrays *)
Definition get_arrays (p : ptr) : oprog (Z * ptr * ptr) :=
  b <== get_block p ;; match b with BArrays n i m => ret (n, i, m) | _ => lift UB end.
(** source/extensions/arrays.c:233-242 osl_arrays_malloc *)
Definition osl_arrays_malloc_p : oprog ptr := malloc (BArrays 0 NULL NULL).
(** source/extensions/arrays.c:249-259 osl_arrays_free *)
Definition osl_arrays_free_p (arrays : ptr) : oprog unit :=
  if isnull arrays then ret tt
  else '(n, i, m) <== get_arrays arrays ;;
       free i ;;==
       pfor (Z.to_nat n) 0 (λ k, x <== ptr_at m k ;; free x) ;;==
       free m ;;== free arrays.
(** source/extensions/arrays.c:272-290 osl_arrays_clone *)
Definition osl_arrays_clone_p (arrays : ptr) : oprog ptr :=
  if isnull arrays then ret NULL
  else clone <== osl_arrays_malloc_p ;;
       '(n, i, m) <== get_arrays arrays ;;
       i' <== new_ints (Z.to_nat n) ;;
       m' <== new_ptrs (Z.to_nat n) ;;
       put clone (BArrays n i' m') ;;==
       pfor (Z.to_nat n) 0 (λ k, x <== int_at i k ;; set_int i' k x ;;==
                                 y <== ptr_at m k ;; z <== OSL_strdup_p y ;; set_ptr m' k z) ;;==
       ret clone.
(** source/extensions/arrays.c:382-394 osl_arrays_add *)
Definition osl_arrays_add_p (arrays : ptr) (id : Z) (name : ptr) : oprog Z :=
  if isnull arrays || isnull name then ret (-1)
  else '(n, i, m) <== get_arrays arrays ;;
       i' <== realloc_ints i (Z.to_nat (n + 1)) ;;
       put arrays (BArrays n i' m) ;;==
       m' <== realloc_ptrs m (Z.to_nat (n + 1)) ;;
       put arrays (BArrays n i' m') ;;==
       set_int i' (Z.to_nat n) id ;;==
       z <== OSL_strdup_p name ;; set_ptr m' (Z.to_nat n) z ;;==
       put arrays (BArrays (n + 1) i' m') ;;==
       ret (n + 1).

(** ** Structures with one string: comment, clay, textual *)
Definition get_holder (p : ptr) : oprog ptr :=
  b <== get_block p ;; match b with BHolder t => ret t | _ => lift UB end.
(** source/extensions/comment.c:205-212 osl_comment_malloc; clay.c:211-218 osl_clay_malloc;
    textual.c:214-221 osl_textual_malloc *)
Definition osl_comment_malloc_p : oprog ptr := malloc (BHolder NULL).
(** source/extensions/comment.c:220-226 osl_comment_free; clay.c:226-232 osl_clay_free;
    textual.c:229-235 osl_textual_free *)
Definition osl_comment_free_p (comment : ptr) : oprog unit :=
  if isnull comment then ret tt
  else t <== get_holder comment ;;
       (if isnull t then ret tt else free t) ;;== free comment.
(** source/extensions/comment.c:239-249 osl_comment_clone; clay.c:245-255 osl_clay_clone;
    textual.c:248-258 osl_textual_clone *)
Definition osl_comment_clone_p (comment : ptr) : oprog ptr :=
  if isnull comment then ret NULL
  else clone <== osl_comment_malloc_p ;;
       t <== get_holder comment ;;
       t' <== OSL_strdup_p t ;;
       put clone (BHolder t') ;;==
       ret clone.

(** ** Scattering names *)
Definition get_scatnames (p : ptr) : oprog ptr :=
  b <== get_block p ;; match b with BScatnames t => ret t | _ => lift UB end.
(** source/extensions/scatnames.c:184-191 osl_scatnames_malloc *)
Definition osl_scatnames_malloc_p : oprog ptr := malloc (BScatnames NULL).
(** source/extensions/scatnames.c:199-204 osl_scatnames_free *)
Definition osl_scatnames_free_p (scatnames : ptr) : oprog unit :=
  if isnull scatnames then ret tt
  else n <== get_scatnames scatnames ;; osl_strings_free_p n ;;== free scatnames.
(** source/extensions/scatnames.c:217-227 osl_scatnames_clone *)
Definition osl_scatnames_clone_p (scatnames : ptr) : oprog ptr :=
  if isnull scatnames then ret NULL
  else clone <== osl_scatnames_malloc_p ;;
       n <== get_scatnames scatnames ;;
       n' <== osl_strings_clone_p n ;;
       put clone (BScatnames n') ;;==
       ret clone.

(** ** Coordinates *)
Definition get_coordinates (p : ptr) : oprog (ptr * Z * Z * Z * Z * Z) :=
  b <== get_block p ;; match b with BCoordinates n a b c d e => ret (n, a, b, c, d, e) | _ => lift UB end.
(** source/extensions/coordinates.c:235-247 osl_coordinates_malloc *)
Definition osl_coordinates_malloc_p : oprog ptr :=
  malloc (BCoordinates NULL UNDEFINED UNDEFINED UNDEFINED UNDEFINED UNDEFINED).
(** source/extensions/coordinates.c:255-260 osl_coordinates_free *)
Definition osl_coordinates_free_p (coordinates : ptr) : oprog unit :=
  if isnull coordinates then ret tt
  else '(n, _, _, _, _, _) <== get_coordinates coordinates ;; free n ;;== free coordinates.
(** source/extensions/coordinates.c:273-289 osl_coordinates_clone *)
Definition osl_coordinates_clone_p (coordinates : ptr) : oprog ptr :=
  if isnull coordinates then ret NULL
  else clone <== osl_coordinates_malloc_p ;;
       '(n, ls, le, cs, ce, ind) <== get_coordinates coordinates ;;
       n' <== OSL_strdup_p n ;;
       put clone (BCoordinates n' ls le cs ce ind) ;;==
       ret clone.

(** ** Scattering dimension information *)
Definition get_scatinfos (p : ptr) : oprog (Z * ptr * ptr * ptr) :=
  b <== get_block p ;; match b with BScatinfos n a b c => ret (n, a, b, c) | _ => lift UB end.
(** source/extensions/scatinfos.c:274-284 osl_scatinfos_malloc *)
Definition osl_scatinfos_malloc_p : oprog ptr := malloc (BScatinfos 0 NULL NULL NULL).
(** source/extensions/scatinfos.c:292-302 osl_scatinfos_free *)
Definition osl_scatinfos_free_p (scatinfos : ptr) : oprog unit :=
  if isnull scatinfos then ret tt
  else '(_, a, b, c) <== get_scatinfos scatinfos ;;
       (if isnull a then ret tt else free a) ;;==
       (if isnull b then ret tt else free b) ;;==
       (if isnull c then ret tt else free c) ;;==
       free scatinfos.
(** source/extensions/scatinfos.c:315-337 osl_scatinfos_clone *)
Definition osl_scatinfos_clone_p (scatinfos : ptr) : oprog ptr :=
  if isnull scatinfos then ret NULL
  else clone <== osl_scatinfos_malloc_p ;;
       '(n, a, b, c) <== get_scatinfos scatinfos ;;
       put clone (BScatinfos n NULL NULL NULL) ;;==
       a' <== new_ints (Z.to_nat n) ;; put clone (BScatinfos n a' NULL NULL) ;;==
       pfor (Z.to_nat n) 0 (λ i, x <== int_at a i ;; set_int a' i x) ;;==
       b' <== new_ints (Z.to_nat n) ;; put clone (BScatinfos n a' b' NULL) ;;==
       pfor (Z.to_nat n) 0 (λ i, x <== int_at b i ;; set_int b' i x) ;;==
       c' <== new_ints (Z.to_nat n) ;; put clone (BScatinfos n a' b' c') ;;==
       pfor (Z.to_nat n) 0 (λ i, x <== int_at c i ;; set_int c' i x) ;;==
       ret clone.

(** ** Texts of annotations and regions: a structure inside its owner *)
(** source/extensions/annotation.c:129-133 osl_annotation_text_init; region.c:127-131 osl_region_text_init *)
Definition no_text : textrec := Text 0 NULL NULL.
(** source/extensions/annotation.c:84-104 osl_annotation_text_append; region.c:83-102
    osl_region_text_append: the new value of [*text].  The string is taken over, not copied. *)
Definition text_append_p (text : textrec) (line_type : Z) (line : ptr) : oprog textrec :=
  let count := t_count text + 1 in
  lines <== realloc_ptrs (t_lines text) (Z.to_nat count) ;;
  types <== realloc_ints (t_types text) (Z.to_nat count) ;;
  set_ptr lines (Z.to_nat (t_count text)) line ;;==
  set_int types (Z.to_nat (t_count text)) line_type ;;==
  ret (Text count types lines).
Fixpoint text_clone_loop (k i : nat) (source destination : textrec) : oprog textrec :=
  match k with
  | O => ret destination
  | S k' => x <== ptr_at (t_lines source) i ;;
            line <== strdup_p x ;;
            ty <== int_at (t_types source) i ;;
            d <== text_append_p destination ty line ;;
            text_clone_loop k' (S i) source d
  end.
(** source/extensions/annotation.c:115-127 osl_annotation_text_clone; region.c:114-125 osl_region_text_clone *)
Definition text_clone_p (source : textrec) : oprog textrec :=
  text_clone_loop (Z.to_nat (t_count source)) 0 source no_text.
(** source/extensions/annotation.c:135-146 osl_annotation_text_clean; region.c:133-144 osl_region_text_clean *)
Definition text_clean_p (text : textrec) : oprog unit :=
  (if isnull (t_lines text) then ret tt
   else pfor (Z.to_nat (t_count text)) 0 (λ i, x <== ptr_at (t_lines text) i ;; if isnull x then ret tt else free x) ;;==
        free (t_lines text)) ;;==
  (if isnull (t_types text) then ret tt else free (t_types text)).

(** ** Annotations *)
Definition get_annotation (p : ptr) : oprog (textrec * textrec) :=
  b <== get_block p ;; match b with BAnnotation x y => ret (x, y) | _ => lift UB end.
(** source/extensions/annotation.c:280-291 osl_annotation_malloc *)
Definition osl_annotation_malloc_p : oprog ptr := malloc (BAnnotation no_text no_text).
(** source/extensions/annotation.c:293-297 osl_annotation_free *)
Definition osl_annotation_free_p (annotation : ptr) : oprog unit :=
  '(x, y) <== get_annotation annotation ;;
  text_clean_p x ;;== text_clean_p y ;;== free annotation.
(** source/extensions/annotation.c:303-310 osl_annotation_clone *)
Definition osl_annotation_clone_p (source : ptr) : oprog ptr :=
  clone <== osl_annotation_malloc_p ;;
  '(x, y) <== get_annotation source ;;
  x' <== text_clone_p x ;; put clone (BAnnotation x' no_text) ;;==
  y' <== text_clone_p y ;; put clone (BAnnotation x' y') ;;==
  ret clone.
(** source/extensions/annotation.c:167-170 osl_annotation_append_prefix *)
Definition osl_annotation_append_prefix_p (annotation : ptr) (type : Z) (line : ptr) : oprog unit :=
  '(x, y) <== get_annotation annotation ;;
  x' <== text_append_p x type line ;; put annotation (BAnnotation x' y).
(** source/extensions/annotation.c:172-175 osl_annotation_append_suffix *)
Definition osl_annotation_append_suffix_p (annotation : ptr) (type : Z) (line : ptr) : oprog unit :=
  '(x, y) <== get_annotation annotation ;;
  y' <== text_append_p y type line ;; put annotation (BAnnotation x y').

(** ** Regions *)
Definition get_region (p : ptr) : oprog (Z * textrec * textrec * textrec * textrec * ptr) :=
  b <== get_block p ;; match b with BRegion l a b c d n => ret (l, a, b, c, d, n) | _ => lift UB end.
Definition set_region_next (p q : ptr) : oprog unit :=
  '(l, a, b, c, d, _) <== get_region p ;; put p (BRegion l a b c d q).
(** source/extensions/region.c:342-359 osl_region_malloc *)
Definition osl_region_malloc_p : oprog ptr := malloc (BRegion 0 no_text no_text no_text no_text NULL).
Fixpoint region_free_loop (fuel : nat) (region : ptr) : oprog unit :=
  match fuel with
  | O => lift OutOfFuel
  | S f =>
      if isnull region then ret tt
      else '(_, a, b, c, d, n) <== get_region region ;;
           text_clean_p a ;;== text_clean_p b ;;== text_clean_p c ;;== text_clean_p d ;;==
           free region ;;==
           region_free_loop f n
  end.
(** source/extensions/region.c:361-377 osl_region_free *)
Definition osl_region_free_p (region : ptr) : oprog unit := loop (λ n, region_free_loop n region).
(** source/extensions/region.c:383-393 osl_region_clone_one *)
Definition osl_region_clone_one_p (source : ptr) : oprog ptr :=
  clone <== osl_region_malloc_p ;;
  '(l, a, b, c, d, _) <== get_region source ;;
  a' <== text_clone_p a ;; b' <== text_clone_p b ;; c' <== text_clone_p c ;; d' <== text_clone_p d ;;
  put clone (BRegion l a' b' c' d' NULL) ;;==
  ret clone.
Fixpoint region_clone_loop (fuel : nat) (last current : ptr) : oprog unit :=
  match fuel with
  | O => lift OutOfFuel
  | S f =>
      if isnull current then ret tt
      else x <== osl_region_clone_one_p current ;;
           set_region_next last x ;;==
           '(_, _, _, _, _, n) <== get_region current ;;
           region_clone_loop f x n
  end.
(** source/extensions/region.c:395-412 osl_region_clone *)
Definition osl_region_clone_p (source : ptr) : oprog ptr :=
  if isnull source then ret NULL
  else clone <== osl_region_clone_one_p source ;;
       '(_, _, _, _, _, n) <== get_region source ;;
       loop (λ k, region_clone_loop k clone n) ;;==
       ret clone.

(** ** Loops *)
Definition get_loop (p : ptr) : oprog (ptr * Z * ptr * ptr * Z * ptr * ptr) :=
  b <== get_block p ;; match b with BLoop i n s pv d u x => ret (i, n, s, pv, d, u, x) | _ => lift UB end.
Definition set_loop_next (p q : ptr) : oprog unit :=
  '(i, n, s, pv, d, u, _) <== get_loop p ;; put p (BLoop i n s pv d u q).
(** source/extensions/loop.c:331-344 osl_loop_malloc *)
Definition osl_loop_malloc_p : oprog ptr := malloc (BLoop NULL 0 NULL NULL 0 NULL NULL).
Definition free_if (p : ptr) : oprog unit := if isnull p then ret tt else free p.
Fixpoint loop_free_loop (fuel : nat) (l : ptr) : oprog unit :=
  match fuel with
  | O => lift OutOfFuel
  | S f =>
      if isnull l then ret tt
      else '(i, _, s, pv, _, u, n) <== get_loop l ;;
           free_if i ;;== free_if s ;;== free_if pv ;;== free_if u ;;==
           free l ;;==
           loop_free_loop f n
  end.
(** source/extensions/loop.c:352-369 osl_loop_free *)
Definition osl_loop_free_p (l : ptr) : oprog unit := loop (λ n, loop_free_loop n l).
(** source/extensions/loop.c:383-408 osl_loop_clone_one *)
Definition osl_loop_clone_one_p (l : ptr) : oprog ptr :=
  if isnull l then ret NULL
  else clone <== osl_loop_malloc_p ;;
       '(i, n, s, pv, d, u, _) <== get_loop l ;;
       i' <== OSL_strdup_p i ;;
       s' <== new_ints (Z.to_nat n) ;;
       pfor (Z.to_nat n) 0 (λ k, x <== int_at s k ;; set_int s' k x) ;;==
       pv' <== (if isnull pv then ret NULL else OSL_strdup_p pv) ;;
       u' <== (if isnull u then ret NULL else OSL_strdup_p u) ;;
       put clone (BLoop i' n s' pv' d u' NULL) ;;==
       ret clone.
Fixpoint loop_clone_loop (fuel : nat) (l clone head : ptr) : oprog ptr :=
  match fuel with
  | O => lift OutOfFuel
  | S f =>
      if isnull l then ret head
      else x <== osl_loop_clone_one_p l ;;
           '(_, _, _, _, _, _, n) <== get_loop l ;;
           if isnull clone then loop_clone_loop f n x x
           else set_loop_next clone x ;;== loop_clone_loop f n x head
  end.
(** source/extensions/loop.c:418-437 osl_loop_clone *)
Definition osl_loop_clone_p (l : ptr) : oprog ptr :=
  if isnull l then ret NULL else loop (λ n, loop_clone_loop n l NULL NULL).
Fixpoint loop_add_loop (fuel : nat) (l p : ptr) : oprog unit :=
  match fuel with
  | O => lift OutOfFuel
  | S f => '(_, _, _, _, _, _, n) <== get_loop p ;;
           if isnull n then set_loop_next p l else loop_add_loop f l n
  end.
(** source/extensions/loop.c:589-594 osl_loop_add: the new value of [*ll] *)
Definition osl_loop_add_p (l ll : ptr) : oprog ptr :=
  if isnull ll then ret l else loop (λ n, loop_add_loop n l ll) ;;== ret ll.

(** ** Pluto unroll *)
Definition get_unroll (p : ptr) : oprog (ptr * bool * Z * ptr) :=
  b <== get_block p ;; match b with BUnroll i j f n => ret (i, j, f, n) | _ => lift UB end.
(** source/extensions/pluto_unroll.c:257-267 osl_pluto_unroll_malloc *)
Definition osl_pluto_unroll_malloc_p : oprog ptr := malloc (BUnroll NULL false 0 NULL).
Fixpoint unroll_free_loop (fuel : nat) (p : ptr) : oprog unit :=
  match fuel with
  | O => lift OutOfFuel
  | S f =>
      if isnull p then ret tt
      else '(_, _, _, n) <== get_unroll p ;;
           unroll_free_loop f n ;;==
           '(i, _, _, _) <== get_unroll p ;;
           free i ;;== free p
  end.
(** source/extensions/pluto_unroll.c:276-284 osl_pluto_unroll_free *)
Definition osl_pluto_unroll_free_p (p : ptr) : oprog unit := loop (λ n, unroll_free_loop n p).
(** source/extensions/pluto_unroll.c:299-316 osl_pluto_unroll_fill *)
Definition osl_pluto_unroll_fill_p (p iterator_name : ptr) (jam : bool) (factor : Z) : oprog unit :=
  if isnull p then ret tt
  else '(i, _, _, n) <== get_unroll p ;;
       i' <== (if isnull iterator_name then ret i
               else s <== get_str iterator_name ;;
                    (if isnull i then ret tt else free i) ;;== malloc (BStr s)) ;;
       put p (BUnroll i' jam factor n).
Fixpoint unroll_clone_loop (fuel : nat) (source p : ptr) : oprog unit :=
  match fuel with
  | O => lift OutOfFuel
  | S f =>
      if isnull source then ret tt
      else '(i, j, fa, n) <== get_unroll source ;;
           osl_pluto_unroll_fill_p p i j fa ;;==
           (if isnull n then ret tt
            else x <== osl_pluto_unroll_malloc_p ;;
                 '(i', j', f', _) <== get_unroll p ;; put p (BUnroll i' j' f' x)) ;;==
           '(_, _, _, n') <== get_unroll p ;;
           unroll_clone_loop f n n'
  end.
(** source/extensions/pluto_unroll.c:328-349 osl_pluto_unroll_clone *)
Definition osl_pluto_unroll_clone_p (source : ptr) : oprog ptr :=
  p <== (if isnull source then ret NULL else osl_pluto_unroll_malloc_p) ;;
  loop (λ n, unroll_clone_loop n source p) ;;==
  ret p.

(** ** Dependences *)
Definition get_dependence (p : ptr) : oprog (list Z * ptr * ptr) :=
  b <== get_block p ;; match b with BDependence l d n => ret (l, d, n) | _ => lift UB end.
Definition set_dependence_next (p q : ptr) : oprog unit :=
  '(l, d, _) <== get_dependence p ;; put p (BDependence l d q).
(** source/extensions/dependence.c:454-484 osl_dependence_malloc *)
Definition osl_dependence_malloc_p : oprog ptr := malloc (BDependence (repeat UNDEFINED 14) NULL NULL).
Fixpoint dependence_free_loop (fuel : nat) (p : ptr) : oprog unit :=
  match fuel with
  | O => lift OutOfFuel
  | S f =>
      if isnull p then ret tt
      else '(_, d, next) <== get_dependence p ;;
           osl_relation_free_p d ;;== free p ;;==
           dependence_free_loop f next
  end.
(** source/extensions/dependence.c:491-499 osl_dependence_free *)
Definition osl_dependence_free_p (p : ptr) : oprog unit := loop (λ n, dependence_free_loop n p).
Fixpoint dependence_clone_loop (fuel : nat) (dep : ptr) (first : bool) (clone previous : ptr) : oprog ptr :=
  match fuel with
  | O => lift OutOfFuel
  | S f =>
      if isnull dep then ret clone
      else node <== osl_dependence_malloc_p ;;
           '(l, d, _) <== get_dependence dep ;;
           d' <== osl_relation_clone_p d ;;
           put node (BDependence l d' NULL) ;;==
           (if first then ret tt else set_dependence_next previous node) ;;==
           '(_, _, next) <== get_dependence dep ;;
           dependence_clone_loop f next false (if first then node else clone) node
  end.
(** source/extensions/dependence.c:513-565 osl_dependence_nclone with n = -1, osl_dependence_clone *)
Definition osl_dependence_clone_p (dep : ptr) : oprog ptr := loop (λ n, dependence_clone_loop n dep true NULL NULL).

(** ** Null *)
(** source/extensions/null.c:176-181 osl_null_malloc *)
Definition osl_null_malloc_p : oprog ptr := malloc BNull.
(** source/extensions/null.c:189-193 osl_null_free *)
Definition osl_null_free_p (p : ptr) : oprog unit := if isnull p then ret tt else free p.
(** source/extensions/null.c:206-214 osl_null_clone *)
Definition osl_null_clone_p (p : ptr) : oprog ptr := if isnull p then ret NULL else osl_null_malloc_p.

End PAYLOAD.
