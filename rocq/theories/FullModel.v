(** * FullModel: interfaces, extensions, symbols, statements and scops in memory, with the real blocks of their data
    (source/interface.c, source/generic.c, source/extensions/symbols.c, source/statement.c, source/scop.c, source/names.c)

    HeapObjects.v models these functions with the data of an extension as one opaque block and the strings inside the
    nodes.  Here every string is a block, and the data of an extension is freed and copied by the real function of its
    kind (PayloadModel.v), symbols included, which hold extensions themselves.

    The function pointers of an interface are a number ([code]); a call through an interface is the call of the function
    of that kind.  The [usr] field of a scop is left out; int counters do not overflow (they count nodes). *)
From stdpp Require Import gmap.
From Verif Require Import Base IntModel VectorModel RelationModel StringsModel ExtModel ScopModel HeapModel HeapObjects PayloadModel.

(** ** The functions of an interface *)
Definition code (k : kind) : Z :=
  match k with
  | KStrings => 0 | KBody => 1 | KRelation => 2 | KTextual => 3 | KComment => 4 | KNull => 5 | KScatinfos => 6
  | KScatnames => 7 | KArrays => 8 | KCoordinates => 9 | KClay => 10 | KDependence => 11 | KSymbols => 12
  | KExtbody => 13 | KLoop => 14 | KPlutoUnroll => 15 | KRegion => 16 | KAnnotation => 17
  end.
Definition kind_of (z : Z) : option kind :=
  find (λ k, Z.eqb (code k) z) [KStrings; KBody; KRelation; KTextual; KComment; KNull; KScatinfos; KScatnames; KArrays;
    KCoordinates; KClay; KDependence; KSymbols; KExtbody; KLoop; KPlutoUnroll; KRegion; KAnnotation].

Section FULL.
Context {cfg : config} {al : Allocator obj}.

(** ** Interfaces *)
Definition get_iface_b (p : ptr) : oprog (ptr * Z * ptr) :=
  b <== get_block p ;; match b with BIface u o n => ret (u, o, n) | _ => lift UB end.
Definition set_iface_next (p q : ptr) : oprog unit :=
  '(u, o, _) <== get_iface_b p ;; put p (BIface u o q).
(** The kind of the functions of an interface *)
Definition kind_at (p : ptr) : oprog kind :=
  '(_, o, _) <== get_iface_b p ;; match kind_of o with Some k => ret k | None => lift UB end.
(** source/interface.c:206-222 osl_interface_malloc; the function pointers are set by the callers. *)
Definition osl_interface_malloc_f : oprog ptr := malloc (BIface NULL (-1) NULL).
Fixpoint iface_free_loop (fuel : nat) (interface : ptr) : oprog unit :=
  match fuel with
  | O => lift OutOfFuel
  | S f =>
      if isnull interface then ret tt
      else '(u, _, tmp) <== get_iface_b interface ;;
           (if isnull u then ret tt else free u) ;;== free interface ;;==
           iface_free_loop f tmp
  end.
(** source/interface.c:229-241 osl_interface_free *)
Definition osl_interface_free_f (interface : ptr) : oprog unit := loop (λ n, iface_free_loop n interface).
(** The test [(list->URI != NULL) && (!strcmp(list->URI, URI))] *)
Definition uri_is (u : ptr) (uri : str) : oprog bool :=
  if isnull u then ret false else s <== get_str u ;; ret (str_eqb s uri).
Fixpoint iface_lookup_loop (fuel : nat) (list : ptr) (uri : str) : oprog ptr :=
  match fuel with
  | O => lift OutOfFuel
  | S f =>
      if isnull list then ret NULL
      else '(u, _, n) <== get_iface_b list ;;
           b <== uri_is u uri ;;
           if b then ret list else iface_lookup_loop f n uri
  end.
(** source/interface.c:345-358 osl_interface_lookup *)
Definition osl_interface_lookup_f (list uri : ptr) : oprog ptr :=
  if isnull uri then ret NULL else s <== get_str uri ;; loop (λ n, iface_lookup_loop n list s).
Fixpoint iface_check_loop (fuel : nat) (list check : ptr) : oprog unit :=
  match fuel with
  | O => lift OutOfFuel
  | S f =>
      if isnull check then ret tt
      else '(u, _, n) <== get_iface_b check ;;
           if isnull u then lift Err
           else x <== osl_interface_lookup_f list u ;;
                if isnull x then iface_check_loop f list n else lift Err
  end.
Fixpoint iface_link_loop (fuel : nat) (tmp interface : ptr) : oprog unit :=
  match fuel with
  | O => lift OutOfFuel
  | S f => '(_, _, n) <== get_iface_b tmp ;;
           if isnull n then set_iface_next tmp interface else iface_link_loop f n interface
  end.
(** source/interface.c:173-196 osl_interface_add: the new value of [*list] *)
Definition osl_interface_add_f (list interface : ptr) : oprog ptr :=
  if isnull interface then ret list
  else loop (λ n, iface_check_loop n list interface) ;;==
       if isnull list then ret interface
       else loop (λ n, iface_link_loop n list interface) ;;== ret list.
Fixpoint iface_nclone_loop (fuel : nat) (interface : ptr) (n i : Z) (clone : ptr) : oprog ptr :=
  match fuel with
  | O => lift OutOfFuel
  | S f =>
      if isnull interface then ret clone
      else if Z.eqb n (-1) || Z.ltb i n then
        new <== osl_interface_malloc_f ;;
        '(u, o, next) <== get_iface_b interface ;;
        u' <== OSL_strdup_p u ;;
        put new (BIface u' o NULL) ;;==
        clone' <== osl_interface_add_f clone new ;;
        iface_nclone_loop f next n (i + 1)%Z clone'
      else ret clone
  end.
(** source/interface.c:272-293 osl_interface_nclone *)
Definition osl_interface_nclone_f (interface : ptr) (n : Z) : oprog ptr := loop (λ k, iface_nclone_loop k interface n 0 NULL).
(** source/interface.c:302-304 osl_interface_clone *)
Definition osl_interface_clone_f (interface : ptr) : oprog ptr := osl_interface_nclone_f interface (-1).

(** ** Data of an extension, symbols apart *)
(** The free functions of the interfaces: source/strings.c osl_strings_free, source/body.c osl_body_free, ... *)
Definition data_free (k : kind) (p : ptr) : oprog unit :=
  match k with
  | KStrings => osl_strings_free_p p
  | KBody => osl_body_free_p p
  | KRelation => osl_relation_free_p p
  | KTextual | KComment | KClay => osl_comment_free_p p
  | KNull => osl_null_free_p p
  | KScatinfos => osl_scatinfos_free_p p
  | KScatnames => osl_scatnames_free_p p
  | KArrays => osl_arrays_free_p p
  | KCoordinates => osl_coordinates_free_p p
  | KDependence => osl_dependence_free_p p
  | KSymbols => lift UB                            (* not used: see generic_free_loop *)
  | KExtbody => osl_extbody_free_p p
  | KLoop => osl_loop_free_p p
  | KPlutoUnroll => osl_pluto_unroll_free_p p
  | KRegion => osl_region_free_p p
  | KAnnotation => osl_annotation_free_p p
  end.
(** The clone functions of the interfaces *)
Definition data_clone_leaf (k : kind) (p : ptr) : oprog ptr :=
  match k with
  | KStrings => osl_strings_clone_p p
  | KBody => osl_body_clone_p p
  | KRelation => osl_relation_clone_p p
  | KTextual | KComment | KClay => osl_comment_clone_p p
  | KNull => osl_null_clone_p p
  | KScatinfos => osl_scatinfos_clone_p p
  | KScatnames => osl_scatnames_clone_p p
  | KArrays => osl_arrays_clone_p p
  | KCoordinates => osl_coordinates_clone_p p
  | KDependence => osl_dependence_clone_p p
  | KSymbols => lift UB                            (* not used: see generic_clone_loop *)
  | KExtbody => osl_extbody_clone_p p
  | KLoop => osl_loop_clone_p p
  | KPlutoUnroll => osl_pluto_unroll_clone_p p
  | KRegion => osl_region_clone_p p
  | KAnnotation => osl_annotation_clone_p p
  end.

(** ** Extensions and symbols *)
Definition get_gen_b (p : ptr) : oprog (ptr * ptr * ptr) :=
  b <== get_block p ;; match b with BGen d i n => ret (d, i, n) | _ => lift UB end.
Definition set_gen_next (p q : ptr) : oprog unit :=
  '(d, i, _) <== get_gen_b p ;; put p (BGen d i q).
(** source/generic.c:452-461 osl_generic_malloc *)
Definition osl_generic_malloc_f : oprog ptr := malloc (BGen NULL NULL NULL).
(** source/generic.c:672-683 osl_generic_shell *)
Definition osl_generic_shell_f (data interface : ptr) : oprog ptr :=
  generic <== osl_generic_malloc_f ;; put generic (BGen data interface NULL) ;;== ret generic.
Definition get_symbols (p : ptr) : oprog (Z * Z * Z * ptr * ptr * ptr * ptr * ptr) :=
  b <== get_block p ;; match b with BSymbols t g d a b c e n => ret (t, g, d, a, b, c, e, n) | _ => lift UB end.
Definition set_symbols_next (p q : ptr) : oprog unit :=
  '(t, g, d, a, b, c, e, _) <== get_symbols p ;; put p (BSymbols t g d a b c e q).
(** source/extensions/symbols.c:399-412 osl_symbols_malloc *)
Definition osl_symbols_malloc_f : oprog ptr := malloc (BSymbols UNDEFINED UNDEFINED UNDEFINED NULL NULL NULL NULL NULL).

(** source/generic.c:468-489 osl_generic_free and source/extensions/symbols.c:421-433 osl_symbols_free *)
Fixpoint generic_free_loop (fuel : nat) (generic : ptr) : oprog unit :=
  match fuel with
  | O => lift OutOfFuel
  | S f =>
      if isnull generic then ret tt
      else '(data, i, next) <== get_gen_b generic ;;
           (if isnull i then (if isnull data then ret tt else free data)
            else k <== kind_at i ;;
                 match k with KSymbols => symbols_free_loop f data | _ => data_free k data end ;;==
                 osl_interface_free_f i) ;;==
           free generic ;;==
           generic_free_loop f next
  end
with symbols_free_loop (fuel : nat) (symbols : ptr) : oprog unit :=
  match fuel with
  | O => lift OutOfFuel
  | S f =>
      if isnull symbols then ret tt
      else '(_, _, _, a, b, c, e, tmp) <== get_symbols symbols ;;
           generic_free_loop f a ;;== generic_free_loop f b ;;== generic_free_loop f c ;;== generic_free_loop f e ;;==
           free symbols ;;==
           symbols_free_loop f tmp
  end.
Definition osl_generic_free_f (generic : ptr) : oprog unit := loop (λ n, generic_free_loop n generic).
Definition osl_symbols_free_f (symbols : ptr) : oprog unit := loop (λ n, symbols_free_loop n symbols).

(** source/generic.c:636-642 osl_generic_has_URI on a node that is not NULL *)
Definition osl_generic_has_URI_f (x : ptr) (uri : str) : oprog bool :=
  '(_, i, _) <== get_gen_b x ;;
  if isnull i then ret false else '(u, _, _) <== get_iface_b i ;; uri_is u uri.
Fixpoint generic_lookup_loop (fuel : nat) (x : ptr) (uri : str) : oprog ptr :=
  match fuel with
  | O => lift OutOfFuel
  | S f =>
      if isnull x then ret NULL
      else b <== osl_generic_has_URI_f x uri ;;
           '(d, _, n) <== get_gen_b x ;;
           if b then ret d else generic_lookup_loop f n uri
  end.
(** source/generic.c:653-662 osl_generic_lookup; the URI is a string of the caller *)
Definition osl_generic_lookup_f (x : ptr) (uri : str) : oprog ptr := loop (λ n, generic_lookup_loop n x uri).
Fixpoint generic_check_loop (fuel : nat) (list check : ptr) : oprog unit :=
  match fuel with
  | O => lift OutOfFuel
  | S f =>
      if isnull check then ret tt
      else '(_, i, n) <== get_gen_b check ;;
           if isnull i then lift Err
           else '(u, _, _) <== get_iface_b i ;;
                if isnull u then lift Err
                else s <== get_str u ;;
                     x <== osl_generic_lookup_f list s ;;
                     if isnull x then generic_check_loop f list n else lift Err
  end.
Fixpoint generic_link_loop (fuel : nat) (tmp generic : ptr) : oprog unit :=
  match fuel with
  | O => lift OutOfFuel
  | S f => '(_, _, n) <== get_gen_b tmp ;;
           if isnull n then set_gen_next tmp generic else generic_link_loop f n generic
  end.
(** source/generic.c:363-388 osl_generic_add: the new value of [*list] *)
Definition osl_generic_add_f (list generic : ptr) : oprog ptr :=
  if isnull generic then ret list
  else loop (λ n, generic_check_loop n list generic) ;;==
       if isnull list then ret generic
       else loop (λ n, generic_link_loop n list generic) ;;== ret list.
Fixpoint generic_count_loop (fuel : nat) (x : ptr) (n : Z) : oprog Z :=
  match fuel with
  | O => lift OutOfFuel
  | S f => if isnull x then ret n else '(_, _, next) <== get_gen_b x ;; generic_count_loop f next (n + 1)%Z
  end.
(** source/generic.c:561-570 osl_generic_count *)
Definition osl_generic_count_f (x : ptr) : oprog Z := loop (λ n, generic_count_loop n x 0).
Fixpoint generic_prev_loop (fuel : nat) (tmp generic : ptr) : oprog ptr :=
  match fuel with
  | O => lift OutOfFuel
  | S f => '(_, _, n) <== get_gen_b tmp ;;
           if Z.eqb n generic || isnull n then ret tmp else generic_prev_loop f n generic
  end.
(** source/generic.c:395-422 osl_generic_remove_node: the new value of [*list] *)
Definition osl_generic_remove_node_f (list generic : ptr) : oprog ptr :=
  if isnull generic || isnull list then ret list
  else if Z.eqb list generic then
    '(_, _, n) <== get_gen_b generic ;;
    set_gen_next generic NULL ;;== osl_generic_free_f generic ;;== ret n
  else
    tmp <== loop (λ k, generic_prev_loop k list generic) ;;
    '(_, _, n) <== get_gen_b tmp ;;
    if Z.eqb n generic then
      '(_, _, n') <== get_gen_b generic ;;
      set_gen_next tmp n' ;;== set_gen_next generic NULL ;;== osl_generic_free_f generic ;;== ret list
    else ret list.
Fixpoint generic_find_loop (fuel : nat) (tmp : ptr) (uri : str) : oprog ptr :=
  match fuel with
  | O => lift OutOfFuel
  | S f =>
      if isnull tmp then ret NULL
      else b <== osl_generic_has_URI_f tmp uri ;;
           if b then ret tmp else '(_, _, n) <== get_gen_b tmp ;; generic_find_loop f n uri
  end.
(** source/generic.c:430-444 osl_generic_remove: the new value of [*list]; the URI is a string of the caller *)
Definition osl_generic_remove_f (list : ptr) (uri : str) : oprog ptr :=
  tmp <== loop (λ k, generic_find_loop k list uri) ;;
  if isnull tmp then ret list else osl_generic_remove_node_f list tmp.
Fixpoint symbols_link_loop (fuel : nat) (tmp symbols : ptr) : oprog unit :=
  match fuel with
  | O => lift OutOfFuel
  | S f => '(_, _, _, _, _, _, _, n) <== get_symbols tmp ;;
           if isnull n then set_symbols_next tmp symbols else symbols_link_loop f n symbols
  end.
(** source/extensions/symbols.c:446-451 osl_symbols_add: the new value of [*location] *)
Definition osl_symbols_add_f (location symbols : ptr) : oprog ptr :=
  if isnull location then ret symbols else loop (λ n, symbols_link_loop n location symbols) ;;== ret location.

(** source/generic.c:527-552 osl_generic_nclone ([n] nodes are left to copy) and
    source/extensions/symbols.c:461-481 osl_symbols_nclone *)
Fixpoint generic_clone_loop (fuel : nat) (generic : ptr) (n : Z) (clone : ptr) : oprog ptr :=
  match fuel with
  | O => lift OutOfFuel
  | S f =>
      if isnull generic || negb (Z.ltb 0 n) then ret clone
      else '(data, i, next) <== get_gen_b generic ;;
           clone' <== (if isnull i then ret clone
                       else k <== kind_at i ;;
                            x <== match k with KSymbols => symbols_clone_loop f data (-1) 0 NULL | _ => data_clone_leaf k data end ;;
                            interface <== osl_interface_clone_f i ;;
                            new <== osl_generic_malloc_f ;;
                            put new (BGen x interface NULL) ;;==
                            osl_generic_add_f clone new) ;;
           generic_clone_loop f next (n - 1)%Z clone'
  end
with symbols_clone_loop (fuel : nat) (symbols : ptr) (n i : Z) (clone : ptr) : oprog ptr :=
  match fuel with
  | O => lift OutOfFuel
  | S f =>
      if isnull symbols || negb (Z.eqb n (-1) || Z.ltb i n) then ret clone
      else new <== osl_symbols_malloc_f ;;
           '(t, g, d, a, b, c, e, next) <== get_symbols symbols ;;
           na <== osl_generic_count_f a ;; a' <== generic_clone_loop f a na NULL ;;
           nb <== osl_generic_count_f b ;; b' <== generic_clone_loop f b nb NULL ;;
           nc <== osl_generic_count_f c ;; c' <== generic_clone_loop f c nc NULL ;;
           ne <== osl_generic_count_f e ;; e' <== generic_clone_loop f e ne NULL ;;
           put new (BSymbols t g d a' b' c' e' NULL) ;;==
           clone' <== osl_symbols_add_f clone new ;;
           symbols_clone_loop f next n (i + 1)%Z clone'
  end.
Definition osl_generic_nclone_f (generic : ptr) (n : Z) : oprog ptr :=
  n <== (if Z.ltb n 0 then osl_generic_count_f generic else ret n) ;; loop (λ k, generic_clone_loop k generic n NULL).
(** source/generic.c:515-517 osl_generic_clone *)
Definition osl_generic_clone_f (generic : ptr) : oprog ptr := osl_generic_nclone_f generic (-1).
Definition osl_symbols_nclone_f (symbols : ptr) (n : Z) : oprog ptr := loop (λ k, symbols_clone_loop k symbols n 0 NULL).
(** source/extensions/symbols.c:490-492 osl_symbols_clone *)
Definition osl_symbols_clone_f (symbols : ptr) : oprog ptr := osl_symbols_nclone_f symbols (-1).

(** ** Statements *)
Definition get_stmt_b (p : ptr) : oprog (ptr * ptr * ptr * ptr * ptr) :=
  b <== get_block p ;; match b with BStmt d s a e n => ret (d, s, a, e, n) | _ => lift UB end.
Definition set_stmt_next_b (p q : ptr) : oprog unit :=
  '(d, s, a, e, _) <== get_stmt_b p ;; put p (BStmt d s a e q).
(** source/statement.c:489-500 osl_statement_malloc *)
Definition osl_statement_malloc_f : oprog ptr := malloc (BStmt NULL NULL NULL NULL NULL).
Fixpoint stmt_free_loop (fuel : nat) (statement : ptr) : oprog unit :=
  match fuel with
  | O => lift OutOfFuel
  | S f =>
      if isnull statement then ret tt
      else '(d, s, a, e, next) <== get_stmt_b statement ;;
           osl_relation_free_p d ;;== osl_relation_free_p s ;;== osl_relation_list_free_p a ;;== osl_generic_free_f e ;;==
           free statement ;;==
           stmt_free_loop f next
  end.
(** source/statement.c:508-521 osl_statement_free *)
Definition osl_statement_free_f (statement : ptr) : oprog unit := loop (λ n, stmt_free_loop n statement).
Fixpoint stmt_link_loop (fuel : nat) (tmp statement : ptr) : oprog unit :=
  match fuel with
  | O => lift OutOfFuel
  | S f => '(_, _, _, _, n) <== get_stmt_b tmp ;;
           if isnull n then set_stmt_next_b tmp statement else stmt_link_loop f n statement
  end.
(** source/statement.c:534-539 osl_statement_add: the new value of [*location] *)
Definition osl_statement_add_f (location statement : ptr) : oprog ptr :=
  if isnull location then ret statement else loop (λ n, stmt_link_loop n location statement) ;;== ret location.
Fixpoint stmt_clone_loop (fuel : nat) (statement : ptr) (n i : Z) (first : bool) (clone previous : ptr) : oprog ptr :=
  match fuel with
  | O => lift OutOfFuel
  | S f =>
      if isnull statement || negb (Z.eqb n (-1) || Z.ltb i n) then ret clone
      else node <== osl_statement_malloc_f ;;
           '(d, s, a, e, next) <== get_stmt_b statement ;;
           d' <== osl_relation_clone_p d ;;
           s' <== osl_relation_clone_p s ;;
           a' <== osl_relation_list_clone_p a ;;
           e' <== osl_generic_clone_f e ;;
           put node (BStmt d' s' a' e' NULL) ;;==
           (if first then ret tt else set_stmt_next_b previous node) ;;==
           stmt_clone_loop f next n (i + 1)%Z false (if first then node else clone) node
  end.
(** source/statement.c:566-592 osl_statement_nclone *)
Definition osl_statement_nclone_f (statement : ptr) (n : Z) : oprog ptr :=
  loop (λ k, stmt_clone_loop k statement n 0 true NULL NULL).
(** source/statement.c:601-603 osl_statement_clone *)
Definition osl_statement_clone_f (statement : ptr) : oprog ptr := osl_statement_nclone_f statement (-1).

(** ** Scops *)
Definition get_scop_b (p : ptr) : oprog (Z * ptr * ptr * ptr * ptr * ptr * ptr * ptr) :=
  b <== get_block p ;; match b with BScop v l c p s r e n => ret (v, l, c, p, s, r, e, n) | _ => lift UB end.
Definition set_scop_next_b (p q : ptr) : oprog unit :=
  '(v, l, c, pa, s, r, e, _) <== get_scop_b p ;; put p (BScop v l c pa s r e q).
(** source/scop.c:531-546 osl_scop_malloc *)
Definition osl_scop_malloc_f : oprog ptr := malloc (BScop 1 NULL NULL NULL NULL NULL NULL NULL).
Fixpoint scop_free_loop_b (fuel : nat) (scop : ptr) : oprog unit :=
  match fuel with
  | O => lift OutOfFuel
  | S f =>
      if isnull scop then ret tt
      else '(_, l, c, p, s, r, e, tmp) <== get_scop_b scop ;;
           (if isnull l then ret tt else free l) ;;==
           osl_generic_free_f p ;;== osl_relation_free_p c ;;== osl_statement_free_f s ;;==
           osl_interface_free_f r ;;== osl_generic_free_f e ;;==
           free scop ;;==
           scop_free_loop_b f tmp
  end.
(** source/scop.c:553-570 osl_scop_free *)
Definition osl_scop_free_f (scop : ptr) : oprog unit := loop (λ n, scop_free_loop_b n scop).
Fixpoint scop_link_loop (fuel : nat) (tmp scop : ptr) : oprog unit :=
  match fuel with
  | O => lift OutOfFuel
  | S f => '(_, _, _, _, _, _, _, n) <== get_scop_b tmp ;;
           if isnull n then set_scop_next_b tmp scop else scop_link_loop f n scop
  end.
(** source/scop.c:582-587 osl_scop_add: the new value of [*location] *)
Definition osl_scop_add_f (location scop : ptr) : oprog ptr :=
  if isnull location then ret scop else loop (λ n, scop_link_loop n location scop) ;;== ret location.
Fixpoint scop_clone_loop_b (fuel : nat) (scop : ptr) (first : bool) (clone previous : ptr) : oprog ptr :=
  match fuel with
  | O => lift OutOfFuel
  | S f =>
      if isnull scop then ret clone
      else node <== osl_scop_malloc_f ;;
           '(v, l, c, p, s, r, e, next) <== get_scop_b scop ;;
           l' <== (if isnull l then ret NULL else strdup_p l) ;;
           c' <== osl_relation_clone_p c ;;
           p' <== osl_generic_clone_f p ;;
           s' <== osl_statement_clone_f s ;;
           r' <== osl_interface_clone_f r ;;
           e' <== osl_generic_clone_f e ;;
           put node (BScop v l' c' p' s' r' e' NULL) ;;==
           (if first then ret tt else set_scop_next_b previous node) ;;==
           scop_clone_loop_b f next false (if first then node else clone) node
  end.
(** source/scop.c:614-642 osl_scop_clone *)
Definition osl_scop_clone_f (scop : ptr) : oprog ptr := loop (λ k, scop_clone_loop_b k scop true NULL NULL).

(** ** Names *)
Definition get_names (p : ptr) : oprog (ptr * ptr * ptr * ptr * ptr) :=
  b <== get_block p ;; match b with BNames a b c d e => ret (a, b, c, d, e) | _ => lift UB end.
(** source/names.c:142-153 osl_names_malloc *)
Definition osl_names_malloc_f : oprog ptr := malloc (BNames NULL NULL NULL NULL NULL).
(** source/names.c:163-173 osl_names_free *)
Definition osl_names_free_f (names : ptr) : oprog unit :=
  if isnull names then ret tt
  else '(a, b, c, d, e) <== get_names names ;;
       osl_strings_free_p a ;;== osl_strings_free_p b ;;== osl_strings_free_p c ;;== osl_strings_free_p d ;;==
       osl_strings_free_p e ;;== free names.
(** source/names.c:218-230 osl_names_clone *)
Definition osl_names_clone_f (names : ptr) : oprog ptr :=
  if isnull names then ret NULL
  else clone <== osl_names_malloc_f ;;
       '(a, b, c, d, e) <== get_names names ;;
       a' <== osl_strings_clone_p a ;; b' <== osl_strings_clone_p b ;; c' <== osl_strings_clone_p c ;;
       d' <== osl_strings_clone_p d ;; e' <== osl_strings_clone_p e ;;
       put clone (BNames a' b' c' d' e') ;;==
       ret clone.
End FULL.
