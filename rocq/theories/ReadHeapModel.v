(** * ReadHeapModel: the readers as programs on the heap
    (source/util.c, strings.c, body.c, relation.c, relation_list.c, generic.c, statement.c, scop.c, interface.c and the extensions)

    What the readers allocate, link and free, with the blocks of HeapObjects.v, PayloadModel.v and FullModel.v.  The characters are read by the
    functions of the value-level model ([lift]): the text of a file and the cursor in a string are values.

    Simplifications: a buffer that is filled, then reduced by realloc is a block that is released and replaced by a block with the string; the
    content of the tags is read at once when its reader starts; the fields of a node are written together, in the order of the reader; the warnings
    of osl_scop_integrity_check, which only reads the result, are left out. *)
From stdpp Require Import gmap.
From Verif Require Import Base IntModel VectorModel RelationModel UtilModel StringsModel RelTextModel ExtModel ScopModel HeapModel HeapObjects PayloadModel FullModel.
Notation loop := HeapModel.loop.

Section READ.
Context {cfg : config} {al : Allocator obj}.
Variable env : option str.

(** ** source/util.c *)
(** source/util.c:171-200 osl_util_read_string, from a string *)
Definition osl_util_read_string_h (s : str) : oprog (ptr * str) :=
  res <== malloc (BStr []) ;;
  '(t, s) <== lift (osl_util_read_string_s s) ;;
  free res ;;== res <== malloc (BStr t) ;; ret (res, s).
(** source/util.c:214-238 osl_util_read_line, from a string *)
Definition osl_util_read_line_h (s : str) : oprog (ptr * str) :=
  res <== malloc (BStr []) ;;
  '(t, s) <== lift (osl_util_read_line_s s) ;;
  free res ;;== res <== malloc (BStr t) ;; ret (res, s).
(** source/util.c:254-300 osl_util_read_tag: nothing is allocated at the end of the input. *)
Definition tag_string {X} (x : option str * X) : oprog (ptr * X) :=
  match fst x with None => ret (NULL, snd x) | Some t => res <== malloc (BStr t) ;; ret (res, snd x) end.
Definition osl_util_read_tag_h (s : str) : oprog (ptr * str) := x <== lift (osl_util_read_tag_s s) ;; tag_string x.
Definition osl_util_read_tag_fh (f : file) : oprog (ptr * file) := x <== lift (osl_util_read_tag_f f) ;; tag_string x.
(** source/util.c:315-356 osl_util_read_uptoflag: the buffer is released if the flag is not found. *)
Definition upto_string {X} (res : ptr) (x : option str * X) : oprog (ptr * X) :=
  match fst x with
  | None => free res ;;== ret (NULL, snd x)
  | Some t => free res ;;== res <== malloc (BStr t) ;; ret (res, snd x)
  end.
Definition osl_util_read_uptoflag_h (s flag : str) : oprog (ptr * str) :=
  res <== malloc (BStr []) ;; upto_string res (osl_util_read_uptoflag_s s flag).
Definition osl_util_read_uptoflag_fh (f : file) (flag : str) : oprog (ptr * file) :=
  res <== malloc (BStr []) ;; x <== lift (osl_util_read_uptoflag_f f flag) ;; upto_string res x.

(** ** source/strings.c *)
(** The second loop of osl_strings_sread: [string[i]] and the following elements *)
Fixpoint read_tokens_h (nb i : nat) (string : ptr) (s : option str) : oprog (option str) :=
  match nb with
  | O => ret s
  | S k =>
      match s with
      | None => lift UB
      | Some s =>
          let '(t, r) := span is_tok s in
          tmp <== lift (buf_store t) ;;
          x <== malloc (BStr tmp) ;;
          set_ptr string i x ;;==
          read_tokens_h k (S i) string (match r with [] => None | c :: r' => if ceqb c c_hash then Some r else Some r' end)
      end
  end.
(** source/strings.c:185-238 osl_strings_sread *)
Definition osl_strings_sread_h (s : str) : oprog (ptr * option str) :=
  s <== lift (osl_util_sskip_blank_and_comments s) ;;
  nb_strings <== lift (count_tokens (S (List.length s)) s 0) ;;
  if Z.ltb 0 nb_strings then
    string <== new_ptrs (Z.to_nat nb_strings + 1) ;;
    set_ptr string (Z.to_nat nb_strings) NULL ;;==
    e <== read_tokens_h (Z.to_nat nb_strings) 0 string (Some s) ;;
    strings <== osl_strings_malloc_p ;;
    a <== get_strings strings ;;
    free a ;;==
    put strings (BStrings string) ;;==
    ret (strings, e)
  else ret (NULL, Some s).
(** source/strings.c:249-257 osl_strings_read *)
Definition osl_strings_read_h (f : file) : oprog (ptr * file) :=
  '(o, f) <== lift (osl_util_skip_blank_and_comments f) ;;
  match o with
  | None => lift UB
  | Some l => '(strings, _) <== osl_strings_sread_h l ;; ret (strings, f)
  end.

(** ** source/body.c *)
(** source/body.c:239-265 osl_body_sread *)
Definition osl_body_sread_h (s : str) : oprog (ptr * str) :=
  body <== osl_body_malloc_p ;;
  '(nb_iterators, s) <== lift (osl_util_read_int_s s) ;;
  '(iterators, c) <== (if Z.ltb 0 nb_iterators then osl_strings_sread_h s else i <== osl_strings_malloc_p ;; ret (i, Some s)) ;;
  put body (BBody iterators NULL) ;;==
  match c with
  | None => lift UB
  | Some s =>
      '(expression, s) <== osl_util_read_line_h s ;;
      e <== osl_strings_encapsulate_p expression ;;
      put body (BBody iterators e) ;;==
      ret (body, s)
  end.

(** ** Extensions with a fixed shape *)
(** [for (i...) a[i] = osl_util_read_int(NULL, input)] *)
Fixpoint read_ints_h (k i : nat) (a : ptr) (s : str) : oprog str :=
  match k with
  | O => ret s
  | S k' => '(v, s) <== lift (osl_util_read_int_s s) ;; set_int a i v ;;== read_ints_h k' (S i) a s
  end.
Fixpoint read_pairs_h (k i : nat) (a b : ptr) (s : str) : oprog str :=
  match k with
  | O => ret s
  | S k' => '(v, s) <== lift (osl_util_read_int_s s) ;; set_int a i v ;;==
            '(w, s) <== lift (osl_util_read_int_s s) ;; set_int b i w ;;==
            read_pairs_h k' (S i) a b s
  end.
(** source/extensions/extbody.c:196-229 osl_extbody_sread *)
Definition osl_extbody_sread_h (s : str) : oprog (ptr * str) :=
  '(nb_access, s) <== lift (osl_util_read_int_s s) ;;
  if Z.ltb nb_access 0 then lift Err
  else ebody <== osl_extbody_malloc_p ;;
       start <== new_ints (Z.to_nat nb_access) ;;
       length <== new_ints (Z.to_nat nb_access) ;;
       put ebody (BExtbody nb_access start length NULL) ;;==
       s <== read_pairs_h (Z.to_nat nb_access) 0 start length s ;;
       '(body, s) <== osl_body_sread_h s ;;
       put ebody (BExtbody nb_access start length body) ;;==
       ret (ebody, s).
Fixpoint read_arrays_h (k i : nat) (id names : ptr) (s : str) : oprog str :=
  match k with
  | O => ret s
  | S k' => '(v, s) <== lift (osl_util_read_int_s s) ;; set_int id i v ;;==
            '(x, s) <== osl_util_read_string_h s ;; set_ptr names i x ;;==
            read_arrays_h k' (S i) id names s
  end.
(** source/extensions/arrays.c:188-219 osl_arrays_sread; with a negative count malloc fails and the program stops. *)
Definition osl_arrays_sread_h (s : str) : oprog (ptr * str) :=
  '(nb_names, s) <== lift (osl_util_read_int_s s) ;;
  if Z.ltb nb_names 0 then lift Err
  else arrays <== osl_arrays_malloc_p ;;
       id <== new_ints (Z.to_nat nb_names) ;;
       names <== new_ptrs (Z.to_nat nb_names) ;;
       put arrays (BArrays nb_names id names) ;;==
       pfor (Z.to_nat nb_names) 0 (λ i, set_ptr names i NULL) ;;==
       s <== read_arrays_h (Z.to_nat nb_names) 0 id names s ;;
       ret (arrays, s).
(** source/extensions/comment.c:172-191 osl_comment_sread *)
Definition osl_comment_sread_h (s : str) : oprog (ptr * str) :=
  if Z.ltb MAX_STRING (zlength s) then lift Err
  else comment <== osl_comment_malloc_p ;; t <== malloc (BStr s) ;; put comment (BHolder t) ;;== ret (comment, s).
(** source/extensions/clay.c:171-197 osl_clay_sread *)
Definition osl_clay_sread_h (s : str) : oprog (ptr * str) :=
  if Z.ltb MAX_STRING (zlength s) then lift Err
  else clay <== osl_comment_malloc_p ;; t <== malloc (BStr (snd (span (λ c, ceqb c c_nl) s))) ;; put clay (BHolder t) ;;== ret (clay, s).
(** source/extensions/textual.c:187-200 osl_textual_sread *)
Definition osl_textual_sread_h (s : str) : oprog (ptr * str) :=
  textual <== osl_comment_malloc_p ;; t <== malloc (BStr s) ;; put textual (BHolder t) ;;== ret (textual, []).
(** source/extensions/null.c:147-162 osl_null_sread *)
Definition osl_null_sread_h (s : str) : oprog (ptr * str) := null <== osl_null_malloc_p ;; ret (null, s).
(** source/extensions/scatnames.c:153-170 osl_scatnames_sread *)
Definition osl_scatnames_sread_h (s : str) : oprog (ptr * option str) :=
  '(names, s) <== osl_strings_sread_h s ;;
  if isnull names then ret (NULL, s)
  else scatnames <== osl_scatnames_malloc_p ;; put scatnames (BScatnames names) ;;== ret (scatnames, s).
(** source/extensions/coordinates.c:197-221 osl_coordinates_sread *)
Definition osl_coordinates_sread_h (s : str) : oprog (ptr * str) :=
  coordinates <== osl_coordinates_malloc_p ;;
  '(name, s) <== osl_util_read_line_h s ;;
  '(line_start, s) <== lift (osl_util_read_int_s s) ;;
  '(column_start, s) <== lift (osl_util_read_int_s s) ;;
  '(line_end, s) <== lift (osl_util_read_int_s s) ;;
  '(column_end, s) <== lift (osl_util_read_int_s s) ;;
  '(indent, s) <== lift (osl_util_read_int_s s) ;;
  put coordinates (BCoordinates name line_start line_end column_start column_end indent) ;;==
  ret (coordinates, s).
(** source/extensions/scatinfos.c:236-260 osl_scatinfos_sread; with a negative count malloc fails and the program stops. *)
Definition osl_scatinfos_sread_h (s : str) : oprog (ptr * str) :=
  scatinfos <== osl_scatinfos_malloc_p ;;
  '(nb, s) <== lift (osl_util_read_int_s s) ;;
  if Z.ltb nb 0 then lift Err
  else parallel <== new_ints (Z.to_nat nb) ;;
       put scatinfos (BScatinfos nb parallel NULL NULL) ;;==
       s <== read_ints_h (Z.to_nat nb) 0 parallel s ;;
       permutable <== new_ints (Z.to_nat nb) ;;
       put scatinfos (BScatinfos nb parallel permutable NULL) ;;==
       s <== read_ints_h (Z.to_nat nb) 0 permutable s ;;
       type <== new_ints (Z.to_nat nb) ;;
       put scatinfos (BScatinfos nb parallel permutable type) ;;==
       s <== read_ints_h (Z.to_nat nb) 0 type s ;;
       ret (scatinfos, s).

(** ** Annotations and regions *)
Fixpoint read_lines_h (k : nat) (text : textrec) (s : str) : oprog (textrec * str) :=
  match k with
  | O => ret (text, s)
  | S k' => '(line_type, s) <== lift (osl_util_read_int_s s) ;;
            '(line, s) <== osl_util_read_line_h s ;;
            text <== text_append_p text line_type line ;;
            read_lines_h k' text s
  end.
(** osl_annotation_sread_text, source/extensions/annotation.c:260-268; osl_region_sread_text, source/extensions/region.c:314-322; as in the
    value-level model a negative count is an error at once. *)
Definition text_sread_h (s : str) : oprog (textrec * str) :=
  '(count, s) <== lift (osl_util_read_int_s s) ;;
  if Z.ltb count 0 then lift Err else read_lines_h (Z.to_nat count) no_text s.
(** source/extensions/annotation.c:252-274 osl_annotation_sread *)
Definition osl_annotation_sread_h (s : str) : oprog (ptr * str) :=
  output <== osl_annotation_malloc_p ;;
  '(prefix, s) <== text_sread_h s ;; put output (BAnnotation prefix no_text) ;;==
  '(suffix, s) <== text_sread_h s ;; put output (BAnnotation prefix suffix) ;;==
  ret (output, s).
(** One iteration of source/extensions/region.c:299-336 osl_region_sread, on the node [current] *)
Definition region_fill_h (current : ptr) (s : str) : oprog str :=
  '(location, s) <== lift (osl_util_read_int_s s) ;;
  '(a, s) <== text_sread_h s ;; '(b, s) <== text_sread_h s ;;
  '(c, s) <== text_sread_h s ;; '(d, s) <== text_sread_h s ;;
  put current (BRegion location a b c d NULL) ;;== ret s.
Fixpoint regions_fill_h (n : nat) (current : ptr) (s : str) : oprog str :=
  match n with
  | O => ret s
  | S k => s <== region_fill_h current s ;;
           match k with
           | O => ret s
           | _ => next <== osl_region_malloc_p ;; set_region_next current next ;;== regions_fill_h k next s
           end
  end.
(** source/extensions/region.c:299-336 osl_region_sread *)
Definition osl_region_sread_h (s : str) : oprog (ptr * str) :=
  '(region_count, s) <== lift (osl_util_read_int_s s) ;;
  if Z.eqb region_count 0 then ret (NULL, s)
  else output <== osl_region_malloc_p ;;
       s <== regions_fill_h (Z.to_nat region_count) output s ;;
       ret (output, s).

(** ** Loops and unrolling *)
(** [if (!strcmp(x, "(null)")) { free(x); x = NULL; }] *)
Definition drop_null_h (x : ptr) : oprog ptr :=
  t <== get_str x ;; if str_eqb t (lit "(null)") then free x ;;== ret NULL else ret x.
(** One iteration of source/extensions/loop.c:264-316 osl_loop_sread, on the node [l] *)
Definition loop_fill_h (l : ptr) (s : str) : oprog str :=
  '(iter, s) <== osl_util_read_string_h s ;;
  '(nb_stmts, s) <== lift (osl_util_read_int_s s) ;;
  if Z.ltb nb_stmts 0 then lift Err
  else stmt_ids <== new_ints (Z.to_nat nb_stmts) ;;
       s <== read_ints_h (Z.to_nat nb_stmts) 0 stmt_ids s ;;
       '(private, s) <== osl_util_read_line_h s ;;
       private <== drop_null_h private ;;
       '(directive, s) <== lift (osl_util_read_int_s s) ;;
       '(user, s) <== (if user_directive directive
                       then '(user, s) <== osl_util_read_line_h s ;; user <== drop_null_h user ;; ret (user, s)
                       else ret (NULL, s)) ;;
       put l (BLoop iter nb_stmts stmt_ids private directive user NULL) ;;== ret s.
Fixpoint loops_fill_h (n : nat) (l : ptr) (s : str) : oprog str :=
  match n with
  | O => ret s
  | S k => s <== loop_fill_h l s ;;
           match k with
           | O => ret s
           | _ => next <== osl_loop_malloc_p ;; set_loop_next l next ;;== loops_fill_h k next s
           end
  end.
(** source/extensions/loop.c:264-316 osl_loop_sread; as in the value-level model a negative count is an error at once. *)
Definition osl_loop_sread_h (s : str) : oprog (ptr * str) :=
  '(nb_loops, s) <== lift (osl_util_read_int_s s) ;;
  if Z.ltb nb_loops 0 then lift Err
  else if Z.eqb nb_loops 0 then ret (NULL, s)
  else head <== osl_loop_malloc_p ;; s <== loops_fill_h (Z.to_nat nb_loops) head s ;; ret (head, s).
(** The loop of source/extensions/pluto_unroll.c:220-242 osl_pluto_unroll_sread; [fuel] bounds the number of iterations by the length of the text. *)
Fixpoint unrolls_fill_h (fuel : nat) (p : ptr) (s : str) : oprog str :=
  match fuel with
  | O => lift OutOfFuel
  | S k => '(iter, s) <== osl_util_read_line_h s ;;
           '(jam, s) <== lift (osl_util_read_int_s s) ;;
           '(factor, s) <== lift (osl_util_read_int_s s) ;;
           '(n, s) <== lift (osl_util_read_int_s s) ;;
           if Z.eqb n 1
           then next <== osl_pluto_unroll_malloc_p ;;
                put p (BUnroll iter (negb (jam =? 0)) (factor mod 2 ^ 32) next) ;;== unrolls_fill_h k next s
           else put p (BUnroll iter (negb (jam =? 0)) (factor mod 2 ^ 32) NULL) ;;== ret s
  end.
(** source/extensions/pluto_unroll.c:220-242 osl_pluto_unroll_sread *)
Definition osl_pluto_unroll_sread_h (s : str) : oprog (ptr * str) :=
  '(n, s) <== lift (osl_util_read_int_s s) ;;
  if Z.eqb n 1 then p <== osl_pluto_unroll_malloc_p ;; s <== unrolls_fill_h (S (List.length s)) p s ;; ret (p, s)
  else ret (NULL, s).

(** ** source/relation.c *)
(** The tests and the release of source/relation.c:1282-1322 osl_relation_read_type on the strings that were read *)
Definition type_of_strings_h (strings : ptr) : oprog Z :=
  n <== osl_strings_size_p strings ;;
  if (n =? 0)%nat then lift Err
  else a <== get_strings strings ;; x <== ptr_at a 0 ;; t <== get_str x ;;
       type <== lift (parse_type t) ;;
       osl_strings_free_p strings ;;== ret type.
(** source/relation.c:1264-1323 osl_relation_read_type, from a file *)
Definition osl_relation_read_type_fh (f : file) : oprog (Z * file) :=
  '(strings, f) <== osl_strings_read_h f ;; type <== type_of_strings_h strings ;; ret (type, f).
(** source/relation.c:1264-1323 osl_relation_read_type, from a string *)
Definition osl_relation_read_type_h (s : str) : oprog (Z * option str) :=
  '(strings, s) <== osl_strings_sread_h s ;; type <== type_of_strings_h strings ;; ret (type, s).
Fixpoint hfor {S} (k : nat) (i : Z) (f : Z → S → oprog S) (s : S) : oprog S :=
  match k with O => ret s | Datatypes.S k' => s <== f i s ;; hfor k' (i + 1)%Z f s end.
(** One row: the cells of [m[i]] are written in the matrix of the node. *)
Definition row_fill_h (m : ptr) (p i cols : Z) (c : str) (sc : scratch) : oprog (str * scratch) :=
  mm <== (if isnull m then ret [] else get_mat m) ;;
  '(mm, c, sc) <== lift (read_cells p i cols mm c sc) ;;
  (if isnull m then ret tt else store m (CMat mm)) ;;==
  ret (c, sc).
(** The loop on the rows of source/relation.c:1376-1397 osl_relation_pread *)
Definition rows_fill_fh (p : Z) (relation : ptr) (f : file) (sc : scratch) : oprog (file * scratch) :=
  '(r, m, _) <== get_rel relation ;;
  hfor (Z.to_nat (nrows r)) 0 (λ i '(f, sc),
    '(o, f) <== lift (osl_util_skip_blank_and_comments f) ;;
    match o with
    | None => lift Err
    | Some c => '(_, sc) <== row_fill_h m p i (ncols r) c sc ;; ret (f, sc)
    end) (f, sc).
(** The loop on the rows of source/relation.c:1499-1518 osl_relation_psread_polylib *)
Definition rows_fill_h (p : Z) (relation : ptr) (s : str) (sc : scratch) : oprog (str * scratch) :=
  '(r, m, _) <== get_rel relation ;;
  hfor (Z.to_nat (nrows r)) 0 (λ i '(s, sc),
    s <== lift (osl_util_sskip_blank_and_comments s) ;; row_fill_h m p i (ncols r) s sc) (s, sc).
(** The loops on the parts of source/relation.c:1333-1416 osl_relation_pread, with at least one part *)
Fixpoint read_parts_fh (p type : Z) (k : nat) (d : list Z) (first : bool) (relation_union previous : ptr) (f : file) (sc : scratch) : oprog (ptr * file) :=
  r <== lift (new_part p type d) ;;
  relation <== new_node r ;;
  '(f, sc) <== rows_fill_fh p relation f sc ;;
  (if first then ret tt else set_rel_next previous relation) ;;==
  let relation_union := if first then relation else relation_union in
  match k with
  | O => ret (relation_union, f)
  | S k' => '(d, f) <== lift (next_dims_f f) ;; read_parts_fh p type k' d false relation_union relation f sc
  end.
(** source/relation.c:1333-1416 osl_relation_pread *)
Definition osl_relation_pread_h (f : file) (p : Z) : oprog (ptr * file) :=
  '(type, f) <== osl_relation_read_type_fh f ;;
  '(n, d, f) <== lift (first_dims_f f) ;;
  read_parts_fh p type (Z.to_nat (n - 1)) d true NULL NULL f (Scratch None None).
(** The loops on the parts of source/relation.c:1447-1536 osl_relation_psread_polylib *)
Fixpoint read_parts_h (p : Z) (k : nat) (d : list Z) (first : bool) (relation_union previous : ptr) (s : str) (sc : scratch) : oprog (ptr * str) :=
  r <== lift (new_part p UNDEFINED d) ;;
  relation <== new_node r ;;
  '(s, sc) <== rows_fill_h p relation s sc ;;
  (if first then ret tt else set_rel_next previous relation) ;;==
  let relation_union := if first then relation else relation_union in
  match k with
  | O => ret (relation_union, s)
  | S k' => '(d, s, sc) <== lift (next_dims_s s sc) ;; read_parts_h p k' d false relation_union relation s sc
  end.
(** source/relation.c:1447-1536 osl_relation_psread_polylib *)
Definition osl_relation_psread_polylib_h (s : str) (p : Z) : oprog (ptr * str) :=
  '(n, d, s, sc) <== lift (first_dims_s s (Scratch None None)) ;;
  read_parts_h p (Z.to_nat (n - 1)) d true NULL NULL s sc.
(** source/relation.c:1425-1434 osl_relation_psread *)
Definition osl_relation_psread_h (s : str) (p : Z) : oprog (ptr * str) :=
  '(type, o) <== osl_relation_read_type_h s ;;
  match o with
  | None => lift UB
  | Some s =>
      '(relation, s) <== osl_relation_psread_polylib_h s p ;;
      '(r, m, n) <== get_rel relation ;;
      store relation (CRel (with_type r type) m n) ;;==
      ret (relation, s)
  end.

(** ** source/extensions/dependence.c *)
(** source/extensions/dependence.c:335-401 osl_dependence_read_one_dep *)
Definition osl_dependence_read_one_dep_h (s : str) (p : Z) : oprog (ptr * str) :=
  dep <== osl_dependence_malloc_p ;;
  '(buffer, s) <== osl_util_read_string_h s ;;
  t <== get_str buffer ;;
  free buffer ;;==
  '(ls, s) <== lift (osl_util_read_int_s s) ;;
  '(lt, s) <== lift (osl_util_read_int_s s) ;;
  '(dp, s) <== lift (osl_util_read_int_s s) ;;
  '(rs, s) <== lift (osl_util_read_int_s s) ;;
  '(rt, s) <== lift (osl_util_read_int_s s) ;;
  s <== lift (osl_util_sskip_blank_and_comments s) ;;
  let '(line, s) := span (λ c, negb (ceqb c c_nl)) s in
  line <== lift (buf_store line) ;;
  dims <== lift (scan_ints 8 line) ;;
  if negb (zlength dims =? 8)%Z then lift Err
  else '(domain, s) <== osl_relation_psread_h s p ;;
       put dep (BDependence ([ls; lt; rs; rt; dp; dep_type_of t] ++ dims) domain NULL) ;;==
       ret (dep, s).
Fixpoint dependences_sread_h (n : nat) (first currdep : ptr) (s : str) (p : Z) : oprog (ptr * str) :=
  match n with
  | O => ret (first, s)
  | S k =>
      '(adep, s) <== osl_dependence_read_one_dep_h s p ;;
      if isnull first then dependences_sread_h k adep adep s p
      else set_dependence_next currdep adep ;;== dependences_sread_h k first adep s p
  end.
(** source/extensions/dependence.c:416-441 osl_dependence_psread *)
Definition osl_dependence_psread_h (s : str) (p : Z) : oprog (ptr * str) :=
  '(nbdeps, s) <== lift (osl_util_read_int_s s) ;; dependences_sread_h (Z.to_nat nbdeps) NULL NULL s p.

(** ** source/interface.c *)
(** The osl_*_interface functions: source/strings.c:433-446 osl_strings_interface, ... *)
Definition new_interface_h (i : interf) : oprog ptr :=
  interface <== osl_interface_malloc_f ;;
  match if_uri i with
  | None => put interface (BIface NULL (code (if_kind i)) NULL) ;;== ret interface
  | Some t => u <== malloc (BStr t) ;; put interface (BIface u (code (if_kind i)) NULL) ;;== ret interface
  end.
Fixpoint add_interfaces_h (registry : ptr) (l : list interf) : oprog ptr :=
  match l with
  | [] => ret registry
  | i :: l' => interface <== new_interface_h i ;; registry <== osl_interface_add_f registry interface ;; add_interfaces_h registry l'
  end.
(** source/interface.c:366-393 osl_interface_get_default_registry *)
Definition osl_interface_get_default_registry_h : oprog ptr := add_interfaces_h NULL default_registry.

(** ** source/extensions/symbols.c *)
(** One iteration of source/extensions/symbols.c:317-385 osl_symbols_sread, on the node [symbols]; [one] is osl_generic_sread_one with the registry. *)
Definition symbol_fill_h (one : str → oprog (ptr * str)) (symbols : ptr) (s : str) : oprog str :=
  '(type, s) <== osl_util_read_string_h s ;;
  t <== get_str type ;;
  free type ;;==
  '(generated, s) <== lift (osl_util_read_int_s s) ;;
  '(nb_dims, s) <== lift (osl_util_read_int_s s) ;;
  '(a, s) <== one s ;; '(b, s) <== one s ;; '(c, s) <== one s ;; '(e, s) <== one s ;;
  put symbols (BSymbols (symbol_type_of t) generated nb_dims a b c e NULL) ;;== ret s.
Fixpoint symbols_fill_h (one : str → oprog (ptr * str)) (n : nat) (symbols : ptr) (s : str) : oprog str :=
  match n with
  | O => ret s
  | S k => s <== symbol_fill_h one symbols s ;;
           match k with
           | O => ret s
           | _ => next <== osl_symbols_malloc_f ;; set_symbols_next symbols next ;;== symbols_fill_h one k next s
           end
  end.
(** source/extensions/symbols.c:317-385 osl_symbols_sread; as in the value-level model a negative count is an error at once. *)
Definition symbols_sread_with_h (one : ptr → str → oprog (ptr * str)) (s : str) : oprog (ptr * str) :=
  if Z.ltb MAX_STRING (zlength s) then lift Err
  else '(nb_symbols, s) <== lift (osl_util_read_int_s s) ;;
       if Z.ltb nb_symbols 0 then lift Err
       else if Z.eqb nb_symbols 0 then ret (NULL, s)
       else head <== osl_symbols_malloc_f ;;
            registry <== osl_interface_get_default_registry_h ;;
            s <== symbols_fill_h (one registry) (Z.to_nat nb_symbols) head s ;;
            osl_interface_free_f registry ;;==
            ret (head, s).

(** ** source/generic.c *)
Definition drop {A B} (c : oprog (A * B)) : oprog A := x <== c ;; ret (fst x).
(** The call of [interface->sread(&temp)]; some functions test for a NULL content, the others dereference it. *)
Definition data_sread_h (one : ptr → str → oprog (ptr * str)) (k : kind) (content : ptr) : oprog ptr :=
  if isnull content then
    match k with
    | KTextual | KComment | KNull | KScatinfos | KScatnames | KCoordinates | KClay | KDependence | KSymbols => ret NULL
    | _ => lift UB
    end
  else
    s <== get_str content ;;
    match k with
    | KStrings => drop (osl_strings_sread_h s)
    | KBody => drop (osl_body_sread_h s)
    | KRelation => drop (osl_relation_psread_h s (osl_util_get_precision env))
    | KTextual => drop (osl_textual_sread_h s)
    | KComment => drop (osl_comment_sread_h s)
    | KNull => drop (osl_null_sread_h s)
    | KScatinfos => drop (osl_scatinfos_sread_h s)
    | KScatnames => drop (osl_scatnames_sread_h s)
    | KArrays => drop (osl_arrays_sread_h s)
    | KCoordinates => drop (osl_coordinates_sread_h s)
    | KClay => drop (osl_clay_sread_h s)
    | KDependence => drop (osl_dependence_psread_h s (osl_util_get_precision env))
    | KSymbols => drop (symbols_sread_with_h one s)
    | KExtbody => drop (osl_extbody_sread_h s)
    | KLoop => drop (osl_loop_sread_h s)
    | KPlutoUnroll => drop (osl_pluto_unroll_sread_h s)
    | KRegion => drop (osl_region_sread_h s)
    | KAnnotation => drop (osl_annotation_sread_h s)
    end.
(** What osl_generic_sread_one and osl_generic_read_one do with a tag and its content, source/generic.c:270-285 and 312-327 *)
Definition make_generic_h (one : ptr → str → oprog (ptr * str)) (registry tag content : ptr) : oprog ptr :=
  interface <== osl_interface_lookup_f registry tag ;;
  generic <== (if isnull interface then ret NULL
               else generic <== osl_generic_malloc_f ;;
                    i <== osl_interface_nclone_f interface 1 ;;
                    put generic (BGen NULL i NULL) ;;==
                    k <== kind_at interface ;;
                    d <== data_sread_h one k content ;;
                    put generic (BGen d i NULL) ;;==
                    ret generic) ;;
  free content ;;==
  free tag ;;==
  ret generic.
(** The test [tag == NULL || strlen(tag) < 1 || tag[0] == '/']: the name of the tag to use, if any.  The tag string is not released otherwise. *)
Definition tag_name_h (tag : ptr) : oprog (option str) :=
  if isnull tag then ret None else t <== get_str tag ;; lift (usable_tag (Some t)).
(** source/generic.c:257-286 osl_generic_sread_one; [fuel] bounds the nesting of symbols. *)
Fixpoint sread_one_fuel_h (fuel : nat) (registry : ptr) (s : str) : oprog (ptr * str) :=
  match fuel with
  | O => lift OutOfFuel
  | S k =>
      '(tag, s) <== osl_util_read_tag_h s ;;
      u <== tag_name_h tag ;;
      match u with
      | None => ret (NULL, s)
      | Some name =>
          '(content, s) <== osl_util_read_uptoflag_h s (endtag_of name) ;;
          g <== make_generic_h (sread_one_fuel_h k) registry tag content ;; ret (g, s)
      end
  end.
Definition osl_generic_sread_one_h (registry : ptr) (s : str) : oprog (ptr * str) := sread_one_fuel_h (S (List.length s)) registry s.
(** source/extensions/symbols.c:317-385 osl_symbols_sread *)
Definition osl_symbols_sread_h (s : str) : oprog (ptr * str) := symbols_sread_with_h osl_generic_sread_one_h s.
Fixpoint sread_loop_h (fuel : nat) (registry generic : ptr) (s : str) : oprog ptr :=
  match fuel with
  | O => lift OutOfFuel
  | S k =>
      match s with
      | [] => ret generic
      | _ => '(new, s) <== osl_generic_sread_one_h registry s ;;
             generic <== osl_generic_add_f generic new ;; sread_loop_h k registry generic s
      end
  end.
(** source/generic.c:234-244 osl_generic_sread; the cursor is at the end of the string. *)
Definition osl_generic_sread_h (s : str) (registry : ptr) : oprog ptr := sread_loop_h (S (List.length s)) registry NULL s.
(** source/generic.c:299-328 osl_generic_read_one *)
Definition osl_generic_read_one_h (f : file) (registry : ptr) : oprog (ptr * file) :=
  '(tag, f) <== osl_util_read_tag_fh f ;;
  u <== tag_name_h tag ;;
  match u with
  | None => ret (NULL, f)
  | Some name =>
      '(content, f) <== osl_util_read_uptoflag_fh f (endtag_of name) ;;
      g <== make_generic_h osl_generic_sread_one_h registry tag content ;; ret (g, f)
  end.
(** source/generic.c:339-349 osl_generic_read *)
Definition osl_generic_read_h (f : file) (registry : ptr) : oprog (ptr * file) :=
  '(generic_string, f) <== osl_util_read_uptoflag_fh f (endtag_of uri_scop) ;;
  s <== get_str generic_string ;;
  generic_list <== osl_generic_sread_h s registry ;;
  free generic_string ;;==
  ret (generic_list, f).

(** ** source/relation_list.c, source/statement.c *)
Fixpoint relations_fill_h (n : nat) (list : ptr) (f : file) (p : Z) : oprog file :=
  match n with
  | O => ret f
  | S k => '(elt, f) <== osl_relation_pread_h f p ;;
           store list (CList elt NULL) ;;==
           match k with
           | O => ret f
           | _ => next <== osl_relation_list_malloc_p ;; set_list_next list next ;;== relations_fill_h k next f p
           end
  end.
(** source/relation_list.c:330-352 osl_relation_list_pread *)
Definition osl_relation_list_pread_h (f : file) (p : Z) : oprog (ptr * file) :=
  '(nb_mat, f) <== lift (osl_util_read_int_f f) ;;
  if Z.ltb nb_mat 0 then lift Err
  else res <== osl_relation_list_malloc_p ;;
       f <== relations_fill_h (Z.to_nat nb_mat) res f p ;;
       ret (res, f).
(** The element of a list with one node, which is taken over, and the release of the list: source/statement.c:393-400 and 408-415 *)
Definition take_elt_h (list : ptr) : oprog ptr :=
  if isnull list then ret NULL
  else '(elt, n) <== get_list list ;;
       store list (CList NULL n) ;;==
       osl_relation_list_free_p list ;;==
       ret elt.
(** source/statement.c:383-425 osl_statement_dispatch: the fields of the statement *)
Definition osl_statement_dispatch_h (list : ptr) : oprog (ptr * ptr * ptr) :=
  domain_list <== osl_relation_list_filter_p list TYPE_DOMAIN ;;
  nb_domains <== osl_relation_list_count_p domain_list ;;
  if Z.ltb 1 nb_domains then lift Err
  else
    domain <== take_elt_h domain_list ;;
    scattering_list <== osl_relation_list_filter_p list TYPE_SCATTERING ;;
    nb_scattering <== osl_relation_list_count_p scattering_list ;;
    if Z.ltb 1 nb_scattering then lift Err
    else
      scattering <== take_elt_h scattering_list ;;
      access <== osl_relation_list_filter_p list TYPE_ACCESS ;;
      nb_accesses <== osl_relation_list_count_p access ;;
      n <== osl_relation_list_count_p list ;;
      if negb (nb_domains + nb_scattering + nb_accesses =? n)%Z then lift Err
      else osl_relation_list_free_p list ;;== ret (domain, scattering, access).
Fixpoint read_extensions_h (n : nat) (registry extension : ptr) (f : file) : oprog (ptr * file) :=
  match n with
  | O => ret (extension, f)
  | S k =>
      '(new, f) <== osl_generic_read_one_h f registry ;;
      extension <== osl_generic_add_f extension new ;; read_extensions_h k registry extension f
  end.
(** source/statement.c:436-459 osl_statement_pread on a non-NULL file *)
Definition osl_statement_pread_h (f : file) (registry : ptr) (p : Z) : oprog (ptr * file) :=
  stmt <== osl_statement_malloc_f ;;
  '(list, f) <== osl_relation_list_pread_h f p ;;
  '(domain, scattering, access) <== osl_statement_dispatch_h list ;;
  put stmt (BStmt domain scattering access NULL NULL) ;;==
  '(nb_ext, f) <== lift (osl_util_read_int_f f) ;;
  '(extension, f) <== read_extensions_h (Z.to_nat nb_ext) registry NULL f ;;
  put stmt (BStmt domain scattering access extension NULL) ;;==
  ret (stmt, f).
(** source/statement.c:469-476 osl_statement_read *)
Definition osl_statement_read_h (f : file) : oprog (ptr * file) :=
  registry <== osl_interface_get_default_registry_h ;;
  '(statement, f) <== osl_statement_pread_h f registry (osl_util_get_precision env) ;;
  osl_interface_free_f registry ;;==
  ret (statement, f).

(** ** source/scop.c *)
Fixpoint read_statements_h (n : nat) (statement prev : ptr) (registry : ptr) (p : Z) (f : file) : oprog (ptr * file) :=
  match n with
  | O => ret (statement, f)
  | S k =>
      '(stmt, f) <== osl_statement_pread_h f registry p ;;
      if isnull statement then read_statements_h k stmt stmt registry p f
      else set_stmt_next_b prev stmt ;;== read_statements_h k statement stmt registry p f
  end.
(** One iteration of source/scop.c:410-501 osl_scop_pread after the start tag *)
Definition scop_pread_one_h (registry : ptr) (p : Z) (f : file) : oprog (ptr * file) :=
  scop <== osl_scop_malloc_f ;;
  reg <== osl_interface_clone_f registry ;;
  put scop (BScop 1 NULL NULL NULL NULL reg NULL NULL) ;;==
  '(language, f) <== osl_strings_read_h f ;;
  n <== osl_strings_size_p language ;;
  if (n =? 0)%nat then lift Err
  else
    a <== get_strings language ;; x <== ptr_at a 0 ;; lang <== OSL_strdup_p x ;;
    osl_strings_free_p language ;;==
    put scop (BScop 1 lang NULL NULL NULL reg NULL NULL) ;;==
    '(context, f) <== osl_relation_pread_h f p ;;
    put scop (BScop 1 lang context NULL NULL reg NULL NULL) ;;==
    '(b, f) <== lift (osl_util_read_int_f f) ;;
    '(parameters, f) <== (if Z.ltb 0 b then osl_generic_read_one_h f reg else ret (NULL, f)) ;;
    put scop (BScop 1 lang context parameters NULL reg NULL NULL) ;;==
    '(nb_statements, f) <== lift (osl_util_read_int_f f) ;;
    '(statement, f) <== read_statements_h (Z.to_nat nb_statements) NULL NULL reg p f ;;
    put scop (BScop 1 lang context parameters statement reg NULL NULL) ;;==
    '(extension, f) <== osl_generic_read_h f reg ;;
    put scop (BScop 1 lang context parameters statement reg extension NULL) ;;==
    ret (scop, f).
(** The loop of source/scop.c:410-501 osl_scop_pread; every iteration reads at least one character. *)
Fixpoint scops_pread_h (fuel : nat) (registry : ptr) (p : Z) (first : bool) (list current : ptr) (f : file) : oprog (ptr * file) :=
  match fuel with
  | O => lift OutOfFuel
  | S k =>
      '(tmp, f) <== osl_util_read_uptoflag_fh f (tag_of uri_scop) ;;
      if isnull tmp then ret (list, f)
      else free tmp ;;==
           '(scop, f) <== scop_pread_one_h registry p f ;;
           (if first then ret tt else set_scop_next_b current scop) ;;==
           scops_pread_h k registry p false (if first then scop else list) scop f
  end.
(** source/scop.c:410-501 osl_scop_pread on a non-NULL file *)
Definition osl_scop_pread_h (f : file) (registry : ptr) (p : Z) : oprog (ptr * file) :=
  scops_pread_h (S (List.length (ftext f))) registry p true NULL NULL f.
(** source/scop.c:511-518 osl_scop_read *)
Definition osl_scop_read_h (f : file) : oprog (ptr * file) :=
  registry <== osl_interface_get_default_registry_h ;;
  '(scop, f) <== osl_scop_pread_h f registry (osl_util_get_precision env) ;;
  osl_interface_free_f registry ;;==
  ret (scop, f).

End READ.
