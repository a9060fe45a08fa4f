(** * UtilModel: the text layer, source/util.c

    A C string argument is the list of its characters before the terminating
    NUL.  A [char**] cursor is the list of the characters still to be read, and
    a reader returns the value together with the new cursor.  A stream is the
    text still to be read and the end-of-file flag.  Text files are assumed to
    contain no NUL byte; isspace() is the C-locale one, bytes above 127 are not
    spaces.  Allocation failures are not modelled. *)
From Verif Require Import Base IntModel.

(** ** C library: streams *)

(** FILE*: remaining characters and the feof() flag. *)
Record file := File { ftext : str; feof : bool }.

(** fgets(str, n+1, file): up to [n] characters, stops after a newline.
    Result: characters read, remaining text, whether the end was hit. *)
Fixpoint fgets_loop (n : nat) (s : str) : str * str * bool :=
  match n with
  | O => ([], s, false)
  | S n' =>
      match s with
      | [] => ([], [], true)
      | c :: tl =>
          if ceqb c c_nl then ([c], tl, false)
          else let '(l, r, e) := fgets_loop n' tl in (c :: l, r, e)
      end
  end.

(** fgets(str, OSL_MAX_STRING, file): NULL when nothing could be read. *)
Definition fgets (f : file) : option str * file :=
  let '(l, r, e) := fgets_loop 2047 (ftext f) in
  let f' := File r (feof f || e) in
  match l with [] => (None, f') | _ => (Some l, f') end.

(** fgetc(file): the (char) conversion of EOF is the byte 255. *)
Definition fgetc (f : file) : ascii * file :=
  match ftext f with
  | [] => (chr 255, File [] true)
  | c :: tl => (c, File tl (feof f))
  end.

(** ** Character classes and searching *)

(** Longest prefix of characters satisfying [p], and what follows. *)
Fixpoint span (p : ascii -> bool) (s : str) : str * str :=
  match s with
  | [] => ([], [])
  | c :: tl => if p c then let '(a, b) := span p tl in (c :: a, b) else ([], s)
  end.

(** !strncmp(s, pre, strlen(pre)) *)
Fixpoint starts_with (pre s : str) : bool :=
  match pre, s with
  | [], _ => true
  | c :: pre', d :: s' => ceqb c d && starts_with pre' s'
  | _ :: _, [] => false
  end.

Definition is_upper (c : ascii) : bool :=
  let n := nat_of_ascii c in Nat.leb 65 n && Nat.leb n 90.
Definition is_lower (c : ascii) : bool :=
  let n := nat_of_ascii c in Nat.leb 97 n && Nat.leb n 122.
Definition c_under : ascii := "_"%char.
(** [A-Za-z0-9_], the four tests repeated in osl_util_identifier_is_here. *)
Definition is_word (c : ascii) : bool :=
  is_upper c || is_lower c || is_digit c || ceqb c c_under.

(** ** Skipping blanks and comments *)

(** source/util.c:87-97 osl_util_skip_blank_and_comments: [None] is the NULL pointer, [Some l] the
    rest of the buffered line from the first useful character. *)
Definition is_blank (c : ascii) : bool := is_space c && negb (ceqb c c_nl).
Fixpoint skip_lines (fuel : nat) (f : file) : res (option str * file) :=
  match fuel with
  | O => OutOfFuel
  | S k =>
      let '(o, f') := fgets f in
      match o with
      | None => Ok (None, f')
      | Some l =>
          let start := snd (span is_blank l) in
          match start with
          | c :: _ => if ceqb c c_hash || ceqb c c_nl then skip_lines k f'
                      else Ok (Some start, f')
          | [] => Ok (Some [], f')
          end
      end
  end.
Definition osl_util_skip_blank_and_comments (f : file) : res (option str * file) :=
  skip_lines (S (List.length (ftext f))) f.

(** source/util.c:107-120 osl_util_sskip_blank_and_comments on a non-NULL string. *)
Fixpoint sskip_loop (fuel : nat) (s : str) : res str :=
  match fuel with
  | O => OutOfFuel
  | S k =>
      let s1 := snd (span is_space s) in
      let s2 := match s1 with
                | c :: _ => if ceqb c c_hash
                            then snd (span (fun c => negb (ceqb c c_nl)) s1) else s1
                | [] => s1
                end in
      match s2 with
      | c :: _ => if ceqb c c_nl then sskip_loop k s2 else Ok s2
      | [] => Ok s2
      end
  end.
Definition osl_util_sskip_blank_and_comments (s : str) : res str :=
  sskip_loop (S (List.length s)) s.

(** ** Readers.  [_f] is the call with a FILE*, [_s] the call with a char**. *)

(** Store of a token in [char s[OSL_MAX_STRING]], NUL included. *)
Definition buf_store (t : str) : res str :=
  if zlength t <? MAX_STRING then Ok t else UB.

(** Characters of a token: not blank, not '#'. *)
Definition is_tok (c : ascii) : bool := negb (is_space c) && negb (ceqb c c_hash).
Definition not_space (c : ascii) : bool := negb (is_space c).

(** [sscanf(s, "%d", &res) != 1]; the conversion of a number that does not fit
    an int is undefined. *)
Definition scan_int (s : str) : res Z :=
  match scan_Z s with
  | Some (Some (v, _)) => if fits 32 v then Ok v else UB
  | _ => Err
  end.

(** source/util.c:132-159 osl_util_read_int, from a file: what follows the int on its line is lost. *)
Definition osl_util_read_int_f (f : file) : res (Z * file) :=
  '(o, f') <- osl_util_skip_blank_and_comments f ;;
  match o with
  | None => UB
  | Some l => v <- scan_int l ;; Ok (v, f')
  end.
(** source/util.c:132-159 osl_util_read_int, from a string. *)
Definition osl_util_read_int_s (s : str) : res (Z * str) :=
  s1 <- osl_util_sskip_blank_and_comments s ;;
  let '(t, s2) := span is_tok s1 in
  t <- buf_store t ;; v <- scan_int t ;; Ok (v, s2).

(** [sscanf(s, "%s", res) != 1] *)
Definition scan_str (s : str) : res str :=
  match skip_spaces s with
  | [] => Err
  | s' => Ok (fst (span not_space s'))
  end.

(** source/util.c:171-200 osl_util_read_string, from a file. *)
Definition osl_util_read_string_f (f : file) : res (str * file) :=
  '(o, f') <- osl_util_skip_blank_and_comments f ;;
  match o with
  | None => UB
  | Some l => t <- scan_str l ;; Ok (t, f')
  end.
(** source/util.c:171-200 osl_util_read_string, from a string. *)
Definition osl_util_read_string_s (s : str) : res (str * str) :=
  s1 <- osl_util_sskip_blank_and_comments s ;;
  let '(t, s2) := span is_tok s1 in
  t <- buf_store t ;; v <- scan_str t ;; Ok (v, s2).

(** source/util.c:214-238 osl_util_read_line: characters up to a newline or a '#', at most
    OSL_MAX_STRING of them; the terminator is then written one past the end of
    the buffer. *)
Definition in_line (c : ascii) : bool := negb (ceqb c c_nl) && negb (ceqb c c_hash).
Definition osl_util_read_line_f (f : file) : res (str * file) :=
  '(o, f') <- osl_util_skip_blank_and_comments f ;;
  match o with
  | None => UB
  | Some l => t <- buf_store (fst (span in_line l)) ;; Ok (t, f')
  end.
(** source/util.c:214-238 osl_util_read_line, from a string. *)
Definition osl_util_read_line_s (s : str) : res (str * str) :=
  s1 <- osl_util_sskip_blank_and_comments s ;;
  let '(t, s2) := span in_line s1 in
  t <- buf_store t ;; Ok (t, s2).

Definition c_lt : ascii := "<"%char.
Definition c_gt : ascii := ">"%char.
Definition c_slash : ascii := "/"%char.

(** The loop of osl_util_read_tag on the characters after '<': name, rest.
    [i] characters have been stored; the buffer has OSL_MAX_STRING + 1 bytes. *)
Definition tag_char (i : Z) (c : ascii) : bool :=
  is_upper c || is_lower c || (ceqb c c_slash && (i =? 0)) || ceqb c c_under.
Fixpoint read_tag_loop (i : Z) (s : str) : res (str * str) :=
  match s with
  | [] => Err
  | c :: tl =>
      if ceqb c c_gt then Ok ([], tl)
      else if tag_char i c
           then if MAX_STRING <? i + 1 then UB
                else '(n, r) <- read_tag_loop (i + 1) tl ;; Ok (c :: n, r)
           else Err
  end.
Definition read_tag_at (s : str) : res (str * str) :=
  match s with
  | c :: tl => if ceqb c c_lt then read_tag_loop 0 tl else Err
  | [] => Err
  end.
(** source/util.c:254-300 osl_util_read_tag, from a file: NULL once the end of file flag is set, even
    if the last line, without newline, holds a tag; what follows the tag on its
    line is lost. *)
Definition osl_util_read_tag_f (f : file) : res (option str * file) :=
  '(o, f') <- osl_util_skip_blank_and_comments f ;;
  if feof f' then Ok (None, f')
  else match o with
       | None => UB
       | Some [] => Ok (None, f')
       | Some l => '(n, _) <- read_tag_at l ;; Ok (Some n, f')
       end.
(** source/util.c:254-300 osl_util_read_tag, from a string. *)
Definition osl_util_read_tag_s (s : str) : res (option str * str) :=
  s1 <- osl_util_sskip_blank_and_comments s ;;
  match s1 with
  | [] => Ok (None, [])
  | _ => '(n, r) <- read_tag_at s1 ;; Ok (Some n, r)
  end.

(** source/util.c:315-356 osl_util_read_uptoflag: test on the characters read so far (in order). *)
Definition flag_here (flag acc : str) : bool :=
  let n := List.length acc in let k := List.length flag in
  Nat.leb k n && starts_with flag (skipn (n - k) acc).
(** from a string: [None] is the NULL result, the cursor has then reached the end. *)
Fixpoint uptoflag_loop (flag acc s : str) : option str * str :=
  match s with
  | [] => (None, [])
  | c :: tl =>
      let acc' := acc ++ [c] in
      if flag_here flag acc'
      then (Some (firstn (List.length acc' - List.length flag) acc'), tl)
      else uptoflag_loop flag acc' tl
  end.
Definition osl_util_read_uptoflag_s (s flag : str) : option str * str :=
  uptoflag_loop flag [] s.
(** from a file: fgetc until feof; the EOF byte itself is appended. *)
Fixpoint uptoflag_file (fuel : nat) (flag acc : str) (f : file) : res (option str * file) :=
  match fuel with
  | O => OutOfFuel
  | S k =>
      if feof f then Ok (None, f)
      else let '(c, f') := fgetc f in
           let acc' := acc ++ [c] in
           if flag_here flag acc'
           then Ok (Some (firstn (List.length acc' - List.length flag) acc'), f')
           else uptoflag_file k flag acc' f'
  end.
Definition osl_util_read_uptoflag_f (f : file) (flag : str) : res (option str * file) :=
  uptoflag_file (S (S (List.length (ftext f)))) flag [] f.

Definition tag_of (name : str) : str := c_lt :: name ++ [c_gt].
Definition endtag_of (name : str) : str := c_lt :: c_slash :: name ++ [c_gt].

(** source/util.c:371-376 osl_util_read_uptotag *)
Definition osl_util_read_uptotag_s (s name : str) := osl_util_read_uptoflag_s s (tag_of name).
Definition osl_util_read_uptotag_f (f : file) (name : str) := osl_util_read_uptoflag_f f (tag_of name).
(** source/util.c:391-396 osl_util_read_uptoendtag *)
Definition osl_util_read_uptoendtag_s (s name : str) := osl_util_read_uptoflag_s s (endtag_of name).
Definition osl_util_read_uptoendtag_f (f : file) (name : str) := osl_util_read_uptoflag_f f (endtag_of name).

(** The two search loops of osl_util_tag_content: characters passed over, and
    the rest, which starts with [pat] or is empty. *)
Fixpoint find_pat (pat s : str) : str * str :=
  match s with
  | [] => ([], [])
  | c :: tl => if starts_with pat s then ([], s)
               else let '(a, b) := find_pat pat tl in (c :: a, b)
  end.
(** source/util.c:407-447 osl_util_tag_content: the copy starts one character after the tag
    ([++start]) and stops when the pointer *equals* [stop], which an empty
    content steps over. *)
Definition osl_util_tag_content (s : option str) (name : str) : res (option str) :=
  match s with
  | None => Ok None
  | Some s =>
      let '(_, at_tag) := find_pat (tag_of name) s in
      match at_tag with
      | [] => Ok None
      | _ =>
          let start := skipn (List.length (tag_of name)) at_tag in
          let '(content, at_end) := find_pat (endtag_of name) start in
          match at_end with
          | [] => Ok None
          | _ => match content with
                 | [] => UB
                 | _ :: copy => Ok (Some copy)
                 end
          end
      end
  end.

(** ** Growing buffers *)

(** A [char*] buffer: bytes allocated, string held, and the caller's high-water
    mark variable. *)
Record buffer := Buffer { b_alloc : Z; b_str : str; b_hwm : Z }.

Fixpoint strcat_grow (fuel : nat) (src : str) (b : buffer) : res buffer :=
  match fuel with
  | O => OutOfFuel
  | S k =>
      if b_hwm b <=? zlength (b_str b) + zlength src
      then strcat_grow k src (Buffer (b_hwm b + MAX_STRING) (b_str b) (b_hwm b + MAX_STRING))
      else Ok b
  end.
(** source/util.c:459-466 osl_util_safe_strcat; strcat writes strlen(dst)+strlen(src)+1 bytes. *)
Definition osl_util_safe_strcat (b : buffer) (src : str) : res buffer :=
  b' <- strcat_grow (S (S (Z.to_nat (zlength (b_str b) + zlength src - b_hwm b)))) src b ;;
  if zlength (b_str b') + zlength src <? b_alloc b'
  then Ok (Buffer (b_alloc b') (b_str b' ++ src) (b_hwm b')) else UB.

(** source/util.c:478-485 osl_util_strdup *)
Definition osl_util_strdup (s : str) : str := s.

(** ** Precision *)

(** source/util.c:493-521 osl_util_get_precision; [env] is getenv("OSL_PRECISION").  The warnings on
    stderr are not modelled. *)
Definition osl_util_get_precision {cfg : config} (env : option str) : Z :=
  let precision := if gmp cfg then PRECISION_MP else PRECISION_DP in
  match env with
  | None => precision
  | Some e =>
      if str_eqb e (lit "32") then PRECISION_SP
      else if str_eqb e (lit "64") then PRECISION_DP
      else if str_eqb e (lit "0")
           then if gmp cfg then PRECISION_MP else PRECISION_DP
           else precision
  end.

(** source/util.c:531-539 osl_util_print_provided *)
Definition osl_util_print_provided (provided : bool) (title : str) : str :=
  if provided
  then lit "# " ++ title ++ lit " provided" ++ [c_nl] ++ lit "1" ++ [c_nl]
  else lit "# " ++ title ++ lit " not provided" ++ [c_nl] ++ lit "0" ++ [c_nl; c_nl].

(** ** Identifier substitution *)

(** [expression[i]] is in [A-Za-z0-9_] *)
Definition word_at (e : str) (i : nat) : bool :=
  match nth_error e i with Some c => is_word c | None => false end.

(** source/util.c:550-583 osl_util_identifier_is_here *)
Definition osl_util_identifier_is_here (e ident : str) (index : nat) : bool :=
  let k := List.length ident in
  if Nat.ltb (List.length e) (k + index) then false
  else if Nat.ltb 0 index && word_at e (index - 1) then false
  else if Nat.ltb (k + index) (List.length e) && word_at e (k + index) then false
  else starts_with ident (skipn index e).

(** Last non-blank character of the first [k] characters of [e]: the backward
    loop, whose size_t index wraps around when it passes the beginning. *)
Fixpoint look_back (e : str) (k : nat) : option ascii :=
  match k with
  | O => None
  | S k' => match nth_error e k' with
            | Some c => if is_space c then look_back e k' else Some c
            | None => None
            end
  end.
(** First non-blank character of [s]. *)
Definition look_fwd (s : str) : option ascii :=
  match skip_spaces s with c :: _ => Some c | [] => None end.
Definition one_of (l : string) (c : ascii) : bool := existsb (ceqb c) (lit l).

(** source/util.c:599-635 osl_util_lazy_isolated_identifier *)
Definition osl_util_lazy_isolated_identifier (e ident : str) (index : nat) : bool :=
  match look_back e index with
  | Some c => one_of "[(+=," c
  | None => true
  end &&
  match look_fwd (skipn (index + List.length ident) e) with
  | Some c => one_of "])+,;" c
  | None => true
  end.

(** The inner loop over identifiers: rank and text of the first one found here. *)
Fixpoint find_identifier (e : str) (index : nat) (j : Z) (ids : list str) : option (Z * str) :=
  match ids with
  | [] => None
  | d :: tl => if osl_util_identifier_is_here e d index then Some (j, d)
               else find_identifier e index (j + 1) tl
  end.
Definition c_at : ascii := "@"%char.
Definition placeholder (j : Z) (isolated : bool) : str :=
  if isolated then c_at :: print_Z j ++ [c_at]
  else "("%char :: c_at :: print_Z j ++ [c_at; ")"%char].

(** source/util.c:652-689 osl_util_identifier_substitution; [string] grows through
    osl_util_safe_strcat, shown to append. *)
Fixpoint subst_loop (fuel : nat) (e : str) (ids : list str) (index : nat) (out : str) : res str :=
  match fuel with
  | O => OutOfFuel
  | S k =>
      if Nat.ltb index (List.length e) then
        match find_identifier e index 0 ids with
        | Some (j, d) =>
            subst_loop k e ids (index + List.length d)
              (out ++ placeholder j (osl_util_lazy_isolated_identifier e d index))
        | None =>
            match nth_error e index with
            | Some c => subst_loop k e ids (index + 1) (out ++ [c])
            | None => UB
            end
        end
      else Ok out
  end.
Definition osl_util_identifier_substitution (e : str) (ids : list str) : res str :=
  subst_loop (S (List.length e)) e ids 0 [].
