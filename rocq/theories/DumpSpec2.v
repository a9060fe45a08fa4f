(** * DumpSpec2: the exact texts of the dumps of annotations, regions and irregular extensions (C55) *)
From Verif Require Import Base IntModel TextSpec StringsModel UtilModel RelTextModel ExtModel IrregModel DumpSpec.

Definition numbered {A} (from : Z) (l : list A) : list (Z * A) := combine (map (fun i => from + Z.of_nat i) (seq 0 (List.length l))) l.
Definition printed_string (o : option str) : str := match o with Some s => s | None => lit "(null)" end.
(** The lines of a text: a line at the level with the kind, then the text itself, not indented. *)
Definition text_block (level : Z) (l : text_lines) : str :=
  flat_map (fun x => in_lines [(level, lit "+--type " ++ print_Z (fst x) ++ lit ": " ++ print_Z (fst (snd x)));
                               (0, lit "+--line " ++ print_Z (fst x) ++ lit ": " ++ printed_string (snd (snd x)))]) (numbered 0 l).
Definition annotation_text (level : Z) (a : annotation) : str :=
  in_lines [(level, lit "+-- osl_annotation_t"); (level, [])]
  ++ text_block (level + 2) (an_prefix a) ++ text_block (level + 2) (an_suffix a) ++ in_lines [(level, [])].
Definition region_text (level : Z) (x : Z * region) : str :=
  (if fst x =? 1 then [] else in_lines [(level, lit "|   osl_region_t (node " ++ print_Z (fst x) ++ lit ")")])
  ++ in_lines [(level, []); (level, lit "+--location: " ++ print_Z (re_location (snd x)))]
  ++ text_block (level + 2) (re_prefix (snd x)) ++ text_block (level + 2) (re_suffix (snd x))
  ++ text_block (level + 2) (re_prelude (snd x)) ++ text_block (level + 2) (re_postlude (snd x)).
Definition regions_text (level : Z) (l : list region) : str :=
  in_lines [(level, match l with [] => lit "+-- NULL region" | _ => lit "+-- osl_region_t" end)]
  ++ flat_map (region_text level) (numbered 1 l) ++ in_lines [(level, [])].
(** The predicates: first the control predicates, then the exit ones. *)
Definition predicate_text (kind : str) (x : Z * predicate) : str :=
  in_lines [(0, lit "predicat" ++ print_Z (fst x) ++ lit "'s");
            (0, lit "iterators : " ++ flat_map (fun i => printed_string i ++ lit " ") (pd_iterators (snd x)));
            (0, kind ++ lit " body: " ++ printed_string (pd_body (snd x)))].
Definition irregular_text (level : Z) (statements : list (list Z)) (controls exits : list predicate) : str :=
  in_lines [(level, lit "+-- osl_irregular_t")] ++ times (Z.to_nat (level + 1)) [chr 124; chr 9]
  ++ in_lines (map (fun x => (0, lit "statement" ++ print_Z (fst x) ++ lit "'s predicats : " ++ flat_map (fun v => print_Z v ++ lit " ") (snd x)))
                (numbered 0 statements))
  ++ flat_map (predicate_text (lit "control")) (numbered 0 controls)
  ++ flat_map (predicate_text (lit "exit")) (numbered (zlength controls) exits)
  ++ in_lines [(level + 1, [])].
