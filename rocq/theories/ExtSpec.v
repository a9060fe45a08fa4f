(** * ExtSpec: what statements about bodies and extensions mean (C32, C33, C34)

    Only the value types of ExtModel are used, none of its functions. *)
From Verif Require Import Base Spec TextSpec RelationModel StringsModel ExtModel.

Definition count_ok {A} (l : list A) : Prop := Z.of_nat (List.length l) < 2 ^ 31.

(** A string that is a line of the format: at least one character, no newline,
    no comment, no leading white space, at most [n] characters. *)
Definition line_string (n : nat) (x : str) : Prop :=
  no_nl x /\ ~ In c_hash x /\ (List.length x <= n)%nat /\
  match x with [] => False | c :: _ => is_space c = false end.
(** A string that is one word of the format. *)
Definition word_string (n : nat) (x : str) : Prop :=
  x <> [] /\ (List.length x <= n)%nat /\ forall c, In c x -> is_space c = false /\ c <> c_hash.

(** Printing gives a text, and reading that text back, whatever blanks and
    comments precede it and whatever follows it, gives [x] again and leaves the
    cursor on what follows. *)
Definition roundtrip {A} (printed : res (option str)) (read : str -> res (A * str)) (x : A) : Prop :=
  exists text, printed = Ok (Some text) /\
    forall before after, blank_text before ->
      exists gap, blank_text gap /\ read (before ++ text ++ after) = Ok (x, gap ++ after).

(** What the format can carry. *)
Definition body_ok (b : body) : Prop :=
  exists its e, b = Body (Some (Some its)) (Some (Some [e])) /\
    count_ok its /\ Forall (word_string 2047) its /\ line_string 2047 e.
Definition extbody_ok (e : extbody) : Prop :=
  count_ok (eb_access e) /\ Forall (fun a => c_int (fst a) /\ c_int (snd a)) (eb_access e) /\
  exists b, eb_body e = Some b /\ body_ok b.
(** An entry is printed, with its number and a newline, in a buffer of 2048 bytes. *)
Definition arrays_ok (a : arrays) : Prop :=
  count_ok a /\ Forall (fun x => c_int (fst x) /\ word_string 2034 (snd x)) a.
(** "# File name" and two newlines share the buffer with the name. *)
Definition coordinates_ok (c : coordinates) : Prop :=
  (exists n, co_name c = Some n /\ line_string 2034 n) /\
  c_int (co_line_start c) /\ c_int (co_line_end c) /\ c_int (co_column_start c) /\
  c_int (co_column_end c) /\ c_int (co_indent c).
(** An optional line: NULL is spelled "(null)". *)
Definition opt_line_ok (n : nat) (o : option str) : Prop :=
  match o with None => True | Some x => line_string n x /\ x <> lit "(null)" end.
Definition loop_ok (l : loop) : Prop :=
  (exists i, lo_iter l = Some i /\ word_string 2046 i) /\
  count_ok (lo_stmts l) /\ Forall c_int (lo_stmts l) /\
  opt_line_ok 2046 (lo_private l) /\ c_int (lo_directive l) /\
  (** bit 3 of the directive says that there is a user directive *)
  (if Z.testbit (lo_directive l) 3 then opt_line_ok 2046 (lo_user l) else lo_user l = None).
Definition unroll_ok (u : unroll) : Prop :=
  (exists i, un_iter u = Some i /\ line_string 2046 i) /\ 0 <= un_factor u < 2 ^ 31.
Definition scatinfo_ok (i : scatinfo) : Prop :=
  c_int (si_parallel i) /\ c_int (si_permutable i) /\ c_int (si_type i).
Definition text_lines_ok (l : text_lines) : Prop :=
  count_ok l /\
  Forall (fun x => c_int (fst x) /\ exists s, snd x = Some s /\ line_string 2046 s) l.
Definition annotation_ok (a : annotation) : Prop :=
  text_lines_ok (an_prefix a) /\ text_lines_ok (an_suffix a).
Definition region_ok (r : region) : Prop :=
  c_int (re_location r) /\ text_lines_ok (re_prefix r) /\ text_lines_ok (re_suffix r) /\
  text_lines_ok (re_prelude r) /\ text_lines_ok (re_postlude r).

(** Two tables of array names with the same entries. *)
Definition same_entries {A} (a b : list A) : Prop := forall x, In x a <-> In x b.
(** [i] is the first position in [l] of an entry satisfying [P], or the size. *)
Definition first_index {A} (P : A -> Prop) (l : list A) (i : Z) : Prop :=
  (0 <= i < Z.of_nat (List.length l) /\
   (exists x, nth_error l (Z.to_nat i) = Some x /\ P x) /\
   forall j x, 0 <= j < i -> nth_error l (Z.to_nat j) = Some x -> ~ P x)
  \/ (i = Z.of_nat (List.length l) /\ forall x, In x l -> ~ P x).
