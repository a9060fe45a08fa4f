# Formal model of periscop/openscop in Rocq (Coq 8.16.1)

## Approach

The code under study is a C library (`/repo/source`). Each C function is
rewritten, by hand, as a total Gallina function that returns an *outcome*
(`theories/Base.v`):

* `Ok a`   normal return with the new values of everything the function writes;
* `Err`    the function calls `OSL_error`/`OSL_overflow` and the process exits;
* `UB`     the C program has undefined behaviour (signed overflow, out-of-bounds
  access, NULL dereference, buffer overflow, uninitialised read).

`UB` is never assumed away: every theorem that claims a function works proves
the outcome is `Ok`, so it also proves absence of UB under its hypotheses.

Files `*Model.v` contain the model only (no proofs); `*Proofs.v` contain the
lemmas; `Spec.v` contains the independent specification (denotation of
relations as sets of integer points, representable ranges, ...), as do the other
`*Spec.v` files for their layer, and `Prop*.v` contain the property theorems
(`Cnn_...`), each followed by `Print Assumptions`, with an `Example` showing the
hypotheses are satisfiable. Where the faithful model violates a property, the violation is
proved as `..._refuted` with a concrete witness and the strongest true variant
is proved next to it.

## Modelling conventions

* `osl_int_t` (union of `long`, `long long`, `mpz_t*`) = `Z`; precision is
  passed separately, exactly as in the C API. The range of each precision is
  explicit (`Spec.in_prec`) and every signed overflow is `UB`.
* A build configuration record carries `gmp` (OSL_GMP_IS_HERE), `ndebug`
  (NDEBUG) and the width of `long`.
* Matrices are `list (list Z)`; unions / linked lists are Coq lists in the
  value-level model; the pointer-level behaviour of the list surgery is
  modelled separately on an explicit heap (C40).
* Text is `list ascii`; `FILE*` and `char**` inputs are the remaining text, and
  line buffering by `fgets(…, 2048, …)` is modelled.
* `malloc` never fails (the library exits with `OSL_error` if it does).

## Plan per property

| id | what is modelled | how it is proved |
|----|------------------|------------------|
| C01 | osl_int_add/sub/add_si/increment/decrement with range guards | case analysis + lia for all Z in range |
| C02 | osl_int_mul/mul_si/oppose/abs | as C01; refuted part: product overflow is UB, not an error |
| C03 | floor_div_q/r/q_r, mod, div_exact, C `/` and `%` as Z.quot/Z.rem | Z division lemmas |
| C04 | llgcd loop with fuel, lcm | invariant on the loop, fuel bound by Euclid's log bound |
| C05 | all comparisons, with union-member aliasing on 32-bit long | range reasoning; refuted for DP with 32-bit long |
| C06 | %ld printing and strtol-like scanning | induction on digit lists |
| C07 | set_precision through `int` | exact characterisation; refuted in general |
| C08 | vector.c | induction on component lists |
| C09 | part_equal/equal loops | loop = structural equality |
| C10 | clone functions on values, heap-level independence | equality + heap frame |
| C11 | add/union/nb_components | append; set semantics in Spec.v |
| C12,C13,C15 | row/column surgery loops of relation.c | list surgery lemmas |
| C14 | insert/concat constraints | set semantics |
| C16 | extend_output, normalize_scattering | set semantics on (output, input) points |
| C17 | integrity_check | loop = conjunction of coherence conditions |
| C18 | get_array_id | loop characterisation + arithmetic |
| C19 | get_attributes | folds with max |
| C20,C21 | spprint_polylib, pread, psread, line buffers | parser/printer inversion by induction |
| C22 | relation_list.c on lists | refinement to list functions |
| C23 | generic.c | invariant over operation histories |
| C24 | interface.c | induction / computation |
| C25,C26,C27 | util.c text functions | induction over text |
| C28,C29 | strings.c | induction |
| C30 | statement/scop remove_unions | cartesian product; refuted for scops |
| C31 | statement/scop clone, equal | structural induction |
| C32,C33,C34 | extensions, body | printer/parser inversion |
| C35 | scop printing and reading | composition of the above |
| C36 | integrity checks | soundness by case analysis |
| C37 | safe_strcat with explicit capacity | invariant over append history |
| C38 | get_precision | decision table |
| C39 | add_vector/sub_vector | arithmetic over all points; refuted for sub |
| C40 | pointer-level heap model of linked-list functions | separation-style invariants |
| C41,C42 | stream and string readers | both characterised over the same text specification |
| C43 | expression and comment printing | an independent calculator (ExprSpec.v) evaluates the printed text; induction over the columns |
| C44 | clones of data, extensions, symbols, statements, scops as values (CloneModel.v) | nested induction over data, symbols and extensions; equality by the same induction |
| C45 | SCoPLib check (CloneModel.v) | loop invariants, C36 for coherence; meaning by evaluation of the row |
| C46 | registries (CloneModel.v) | list induction |
| C47 | additions and accessors (CloneModel.v, ExtModel.v, ScopModel.v) | induction over the history of calls |
| C48 | irregular extension (IrregModel.v: index loops over arrays, growing print buffer, strtok) | induction over histories and arrays; refutations |
| C49 | SCoPLib printing (ScoplibModel.v: row loop with fuel because its index is reused, sizes, texts) | words of a text (ScoplibSpec.v), closed-text lemmas, induction over rows, parts, lists; totality of every printing function; layout as a text (LayoutSpec.v); refutations |
| C50 | strings, vectors and extension data as blocks in memory (PayloadModel.v) | separation logic over the heap model (HeapLogic.v), results restated on plain memories (PayloadSpec.v) |
| C51 | interfaces, extensions, symbols, statements, scops, names in memory with real payload (FullModel.v) | nested induction with a weight for the fuel; existence of memories by construction (FullExists.v) |
| C52 | conversions of IntModel.v | case analysis on precision and configuration, `wrap` as the residue in range |
| C53 | osl_scop_print of ScopModel.v with PrintSpec.v | totality of every printing function by induction on unions, statements, extensions and symbols; generated names from C19; then C35; layout as a text (LayoutSpec.v), induction over the statements |
| C54 | matrices, vectors and coefficients as blocks, GMP numbers with their storage (MatModel.v) | separation logic; `sim`: the value-level function of RelationModel/VectorModel against the program, statement by statement; results restated on plain memories (MatSpec.v) |
| C55 | the dump functions as texts (DumpModel.v) | induction on the levels (`lev`), exact texts of relations, prefix codes (`code`): two texts are compared line by line; mutual induction on extensions and symbols |
| C56 | the printers and readers that work on a FILE directly and the allocators that take the precision from the environment (FileModel.v) | totality of printing (C20), then reading element by element; body text by the reader lemmas of C34 |
| C57 | conversion to double (DoubleModel.v): integers with 53 significant bits, nearest or truncated | no double between two multiples of the last bit; linear and nonlinear integer arithmetic |
| C58 | no new model: the readers of UtilModel, StringsModel, RelTextModel, ExtModel, ScopModel, IrregModel on arbitrary text; ReadSpec.v says what a returned value is | one invariant per reader (never out of fuel, rest of the text, shape of the value) composed through bind; strict progress for the loops that are not counted; induction on the nesting of symbols |
| C59 | irregular.c on blocks in memory (IrregHeapModel.v) | separation logic; arrays filled from the left (`filled`), loops by invariants; histories by induction; `wpu` for undefined behaviour |
| C60 | the readers on blocks in memory (ReadHeapModel.v): strings, relations, extensions, statements, scops | simulation of the value-level readers (`sim`) in separation logic; `lost_*` (ReadHeapSpec.v) lists the strings that leak; no printed text has any (ReadHeapProofs7.v) |
| C61 | the equal functions of ScopModel.v and ExtModel.v | `alike_*` (AlikeSpec.v) says what is compared; mutual induction over data, symbols and extensions |
| C62 | osl_relation_spprint and what it calls, on a memory of blocks (PrintHeapModel.v) | separation logic: the program simulates the value-level one and gives back the memory it was given; what is read only is read as a whole |
| C63 | osl_generic_sprint, osl_symbols_sprint and the sprint functions of the interfaces, on a memory of blocks (SaveHeapModel.v) | separation logic: mutual induction on extensions and symbols, bounded by the number of blocks of the memory |
| C64 | osl_scop_print, osl_statement_pprint, osl_relation_list_pprint_elts, the integrity checks and attributes they call and osl_arrays_to_strings, on a memory of blocks (SaveHeapModel.v) | separation logic: the names record is opened and its fields replaced and put back; induction on the chains |
| C65 | the readers, copies and releases of relations, lists, statements and scops with every coefficient in memory (ReadMatModel.v) | separation logic, simulation of the value-level readers; induction on rows, columns, parts and chains |
| C66 | unions, lists of relations, osl_statement_remove_unions and osl_scop_normalize_scattering with every coefficient in memory (ListMatModel.v) | separation logic, simulation of the value-level functions; induction on parts, nodes, statements and call sequences |
| C67 | osl_scop_remove_unions with every coefficient in memory (UnionsMatModel.v) | separation logic; induction on statements and scops with the list built so far as a magic wand |

## Layers of the model

| files | code | level |
|-------|------|-------|
| IntModel, VectorModel, RelationModel | int.c, vector.c, constraint part of relation.c | values, loops over indices with bounds checks |
| UtilModel, StringsModel, RelTextModel | util.c, strings.c, names.c, text part of relation.c | texts, streams, cursors, fixed-size buffers |
| ExtModel, IrregModel | body.c, extensions/*.c | values and texts |
| ScopModel, CloneModel, ScoplibModel | generic.c, interface.c, symbols.c, statement.c, scop.c, relation_list.c | values and texts |
| HeapModel, HeapObjects, HeapEqual | linked structures of relation.c, relation_list.c, interface.c, generic.c, statement.c, scop.c | memory; data of an extension is one opaque block |
| PayloadModel | allocation side of strings.c, vector.c, body.c, extensions/*.c | memory, every array and string a block |
| MatModel | int.c, vector.c, constraint part of relation.c | memory: row pointers, coefficient arrays, GMP numbers are blocks |
| DumpModel | the idump and dump functions of all files | values and texts |
| FileModel, DoubleModel | printers to a FILE, environment-driven allocation; osl_int_get_d | values and texts |
| FullModel | interface.c, generic.c, symbols.c, statement.c, scop.c, names.c | memory, with the real payload blocks |
| IrregHeapModel | extensions/irregular.c | memory |
| ReadHeapModel | the sread, psread and pread functions of all files | texts and memory |
| PrintHeapModel | text part of relation.c, names.c, strings.c | texts and memory: MatModel's relations, the tables of names |
| SaveHeapModel | printers and integrity check of generic.c, symbols.c, arrays.c, relation_list.c, statement.c, scop.c | texts and memory |
| ReadMatModel | readers, lists and release of relation.c, relation_list.c, statement.c, scop.c | texts and memory: every coefficient has its block |
| ListMatModel | unions, lists, remove_unions, normalize_scattering of relation.c, relation_list.c, statement.c, scop.c | memory: every coefficient has its block |
| UnionsMatModel | osl_scop_remove_unions of scop.c | memory: every coefficient has its block |

The memory of HeapModel.v is a finite map from addresses to contents; a program is a function from memories to
`Ok (value, memory)`, `Err`, `UB` or `OutOfFuel`. Reading, writing or freeing an address that is not allocated (NULL,
freed, never allocated) is `UB`. `malloc` returns any address that is not in use: theorems quantify over the allocator.
Loops that follow pointers get as fuel one more than the number of allocated blocks; the theorems prove that the outcome is
`Ok`, so they prove termination as well.

## What is simplified

* In HeapObjects, PayloadModel and FullModel a matrix (array of row pointers and array of coefficients) is one block in
  memory; MatModel has its real blocks. In MatModel a GMP number is a block that points to its storage, and an mpz function
  is one step.
* The function pointers of an interface are a number that stands for one of the eighteen families of the library (plus the
  irregular extension, modelled apart): interfaces with user functions are outside the model.
* `usr` fields, warnings and debug messages are left out. The borrowed pointers of a dependence to statements are left out, except in the
  dump functions.
* int counters and sizes of lists, and `nb_rows * nb_columns`, stay below 2^31.
* Text files have no NUL byte; `isspace` is the one of the C locale; `fgets`, `sscanf`, `strtok`, `strtol` are modelled on
  the inputs the library gives them.
* `printf("%s", NULL)` prints `(null)` (glibc); `malloc(0)` is not NULL; `strcmp` is only used as a test of equality except
  in the irregular extension; `size_t` has 64 bits in the size test of osl_body_clone/sread.
* GMP numbers are `Z` and the mpz functions their mathematical counterparts: GMP itself is trusted.
* A double is an integer or an infinity (all results of osl_int_get_d are); the conversion `(double)` rounds to nearest, ties to
  even (the default rounding mode), and `mpz_get_d` truncates (GMP manual).
* The release string printed in the header is "0.9.5" (CMake value), a constant of the model.

## What is not modelled

* The integrity check, the attribute computations and the name tables of the printers are modelled on memory in SaveHeapModel and
  PrintHeapModel, where the arguments of a pure computation (the relations they test) are read from memory as a whole.
* Functions that are only declared in headers (osl_symbols_remove, osl_symbols_lookup, osl_statement_compact,
  osl_util_read_tail, osl_loop_to_strings): there is no code.

## Trusted base

* Coq 8.16.1 kernel (with `vm_compute`), coqc, the OS.
* Libraries: the standard library, std++ (finite maps) and the Iris proof mode. They are used without axioms.
* `Print Assumptions` says "Closed under the global context" for every property theorem (each `Prop*.v` prints it after each
  theorem). The fields `Coq.ssr.ssrunder.Under_rel.*`, which a listing of all axioms of the loaded libraries shows, are
  module-type fields of the standard ssreflect library that the Iris proof mode loads; no theorem depends on them.
* The fidelity of the hand-written model: every definition cites the C lines it models. No part of it is extracted from the
  code by a tool.

## Findings

Places where the faithful model violates what a user would expect; each is a theorem `..._refuted` next to the property, or
is stated in the property.

* Integers: the checked build accepts additions at the minimum and rejects or overflows others (C01, C02); products, gcd and
  floor division near the minimum overflow (UB); comparisons of DP values are wrong with a 32-bit long (C05); the value goes
  through `int` when the precision changes (C07).
* Vectors and relations: equality with one NULL, concatenation of constraints loses the attributes, extend_output of NULL,
  integrity checks look at the first part only, array identifiers are truncated in release builds, sub_vector on inequalities
  is unsound (C08-C18, C39).
* Text: long blank lines, empty identifiers, tag contents, numbers at the end of the input, lines of 2048 characters (C25-C29,
  C41, C42).
* Lists: removal of the head leaks, set_type changes only the first part of each union, duplicate URIs in one addition, remove_unions
  loses and leaks statements (C22, C23, C30, C40).
* Extensions: equality tests that compare only one direction or dereference NULL (regions, loops, extbodies, coordinates,
  comments), readers that need an end tag, buffers of fixed size (C32-C35).
* Others: C43-C49 name theirs; freeing or copying a NULL annotation dereferences NULL (C50); an extension without interface
  leaks the inner blocks of its data (C51); extend_output reads every part in the precision of the first one (C54).
* Dumps: dependences read from a file, NULL annotations and NULL texts dereference NULL; texts of annotations and regions are
  not indented and ambiguous; a dependence cycle through a statement never ends; long GMP numbers overflow (C55).
* A NULL list of relations is not read back (C56); the same value gives different doubles in double precision and in GMP (C57).
* osl_generic_add finds a duplicate by its data, so extensions read as NULL hide duplicates; osl_scop_pread reads relations of extensions at the precision of the environment, and only warns when the integrity check fails (C58).
* A closing tag where an extension is expected leaks its name, and an empty tag `<>` is undefined behaviour, in
  osl_generic_sread_one and osl_generic_read_one (C60).
* The equality functions ignore the text of comments, all symbols but the first one and all interfaces of the registry but the
  first one; osl_statement_equal dereferences NULL when one side has no statement (C61).
* osl_relation_strings loses the string "Arr" for an access relation without output dimension (C62).

## Testing the theorems

`tools/mutate.py` applies realistic bugs to the model in a scratch copy, rebuilds, and records in `seeded/LOG.jsonl` which
theorems fail. Mutants that survived led to the theorems named in the field `tightened`.
