(** * TextSpec: vocabulary for statements about texts.

    Independent of the model of util.c: only characters, lists and positions. *)
From Verif Require Import Base.

Definition no_nl (s : str) : Prop := ~ In c_nl s.

(** Texts made only of white space and complete comment lines (a comment goes
    from '#' to the end of its line). *)
Inductive blank_text : str -> Prop :=
| bt_nil : blank_text []
| bt_space c p : is_space c = true -> blank_text p -> blank_text (c :: p)
| bt_comment w p : no_nl w -> blank_text p -> blank_text (c_hash :: w ++ c_nl :: p).

(** What precedes the meaningful part [rest] of a text: blank text, plus, when
    nothing is left, possibly a last comment without newline. *)
Definition skippable (p rest : str) : Prop :=
  blank_text p \/
  (rest = [] /\ exists q w, p = q ++ c_hash :: w /\ blank_text q /\ no_nl w).

(** Empty, or starting with something that is neither a blank nor a comment. *)
Definition meaningful (s : str) : Prop :=
  match s with [] => True | c :: _ => is_space c = false /\ c <> c_hash end.

(** No line is longer than what one fgets of OSL_MAX_STRING can hold with its
    newline. *)
Definition short_lines (s : str) : Prop :=
  forall a b c, s = a ++ b ++ c -> no_nl b -> (List.length b <= 2046)%nat.

(** [pat] occurs in [s] just after the prefix [a]. *)
Definition occurs_at (pat s a : str) : Prop := exists b, s = a ++ pat ++ b.

(** [a] is what precedes the first occurrence of [pat] in [s], [b] what follows it. *)
Definition first_occurrence (pat s a b : str) : Prop :=
  s = a ++ pat ++ b /\
  forall a' b', s = a' ++ pat ++ b' -> (List.length a <= List.length a')%nat.

Definition occurs (pat s : str) : Prop := exists a b, s = a ++ pat ++ b.

(** <name> and </name> *)
Definition start_tag (name : str) : str := lit "<" ++ name ++ lit ">".
Definition end_tag (name : str) : str := lit "</" ++ name ++ lit ">".

(** Characters of identifiers: letters, digits and underscore. *)
Definition ident_char (c : ascii) : Prop :=
  In c (lit "ABCDEFGHIJKLMNOPQRSTUVWXYZabcdefghijklmnopqrstuvwxyz0123456789_").

(** A word: a non-empty string of identifier characters. *)
Definition word (w : str) : Prop := w <> [] /\ Forall ident_char w.
Definition ends_in_word (s : str) : Prop := exists a c, s = a ++ [c] /\ ident_char c.
Definition starts_in_word (s : str) : Prop := exists c b, s = c :: b /\ ident_char c.

(** First rank of [d] in [ids]. *)
Definition first_rank (ids : list str) (d : str) (j : nat) : Prop :=
  nth_error ids j = Some d /\ forall i, (i < j)%nat -> nth_error ids i <> Some d.

(** White space around an occurrence. *)
Definition all_space (s : str) : Prop := Forall (fun c => is_space c = true) s.
Definition last_visible_in (l : string) (before : str) : Prop :=
  all_space before \/ exists a c b, before = a ++ c :: b /\ all_space b /\
                      is_space c = false /\ In c (lit l).
Definition first_visible_in (l : string) (after : str) : Prop :=
  all_space after \/ exists a c b, after = a ++ c :: b /\ all_space a /\
                     is_space c = false /\ In c (lit l).

(** Identifier substitution: [o], found between [before] and [after], is the
    [j]-th identifier (first rank) standing alone as a whole word, and [r] is its
    placeholder, bare when the surroundings show that no parentheses are needed. *)
Definition isolated (before after : str) : Prop :=
  last_visible_in "[(+=," before /\ first_visible_in "])+,;" after.
Definition substituted (show : nat -> str) (ids : list str) (before o after r : str) : Prop :=
  exists j, first_rank ids o j /\ ~ ends_in_word before /\ ~ starts_in_word after /\
    ((isolated before after /\ r = lit "@" ++ show j ++ lit "@") \/
     (~ isolated before after /\ r = lit "(@" ++ show j ++ lit "@)")).
