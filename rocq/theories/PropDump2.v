(** * PropDump2: the exact texts of the dumps of annotations, regions and irregular extensions (C55) *)
From Coq Require Import ZifyNat.
From Verif Require Import Base IntModel TextSpec StringsModel UtilModel RelTextModel LoopLemmas ExtModel IrregModel DumpModel DumpSpec DumpSpec2 DumpProofs DumpProofs3.

Lemma numbered_cons {A} from (x : A) l : numbered from (x :: l) = (from, x) :: numbered (from + 1) l.
Proof.
  unfold numbered. cbn [List.length seq map combine]. rewrite Z.add_0_r. f_equal. rewrite <- seq_shift, map_map. f_equal.
  apply map_ext. intros i. lia.
Qed.
Lemma nodes_text {A} (f : Z -> A -> res str) (g : Z * A -> str) n l : (forall n x, f n x = Ok (g (n, x))) ->
  nodes f [] n l = Ok (flat_map g (numbered n l)).
Proof.
  intros H. revert n. induction l as [|x l IH]; intros n; [reflexivity|]. rewrite numbered_cons. cbn [nodes flat_map]. rewrite H. cbn [bind].
  fold (nodes f []). rewrite IH. cbn [bind]. do 2 f_equal. destruct l; reflexivity.
Qed.
Lemma text_dump l level : text_idump l level = Ok (text_block level l).
Proof.
  unfold text_idump, text_block. apply nodes_text. intros n x. unfold text_node. rewrite !in_lines_cons. change (in_lines []) with (@nil ascii).
  unfold line. change (indent 0) with (@nil ascii). rewrite app_nil_r, app_nil_l. cbn [fst snd]. rewrite <- !app_assoc.
  unfold pr, printed_string. reflexivity.
Qed.

Theorem C55_annotation_text : forall a level, osl_annotation_idump (Some a) level = Ok (annotation_text level a).
Proof.
  intros a level. unfold osl_annotation_idump, annotation_text. rewrite !text_dump. cbn [bind]. rewrite !in_lines_cons.
  change (in_lines []) with (@nil ascii). rewrite !app_nil_r, <- !app_assoc. reflexivity.
Qed.
Print Assumptions C55_annotation_text.
Theorem C55_region_text : forall l level, osl_region_idump l level = Ok (regions_text level l).
Proof.
  intros l level. unfold osl_region_idump, regions_text. rewrite (nodes_text _ (region_text level)).
  - cbn [bind]. rewrite !in_lines_cons. change (in_lines []) with (@nil ascii). rewrite !app_nil_r. reflexivity.
  - intros n x. unfold region_node, region_text, next_title. rewrite !text_dump. cbn [bind fst snd]. rewrite !in_lines_cons. change (in_lines []) with (@nil ascii).
    rewrite !app_nil_r, <- ?app_assoc. destruct (n =? 1); reflexivity.
Qed.
Print Assumptions C55_region_text.
Lemma predicates_text what (l : list predicate) before after :
  cfor (zlength before) (zlength before + zlength l)
    (fun i s => y <- aget (before ++ l ++ after) i ;; Ok (s ++ predicate_idump what i y)) [] =
  Ok (flat_map (predicate_text what) (numbered (zlength before) l)).
Proof.
  assert (G : forall l before s, cfor (zlength before) (zlength before + zlength l)
    (fun i s => y <- aget (before ++ l ++ after) i ;; Ok (s ++ predicate_idump what i y)) s =
    Ok (s ++ flat_map (predicate_text what) (numbered (zlength before) l))).
  { clear. induction l as [|x l IH]; intros before s.
    - rewrite cfor_empty by (cbn; lia). cbn. now rewrite app_nil_r.
    - pose proof (zlength_nonneg before) as Hb. pose proof (zlength_nonneg l) as Hl. rewrite zlength_cons. rewrite cfor_step by lia.
      rewrite (aget_ok x) by (rewrite !zlength_app, zlength_cons; pose proof (zlength_nonneg after); lia). cbn [bind].
      rewrite znth_app by lia. destruct (Z.ltb_spec (zlength before) (zlength before)); [lia|]. rewrite Z.sub_diag.
      change (znth x ((x :: l) ++ after) 0) with x.
      specialize (IH (before ++ [x]) (s ++ predicate_idump what (zlength before) x)). rewrite zlength_app in IH. change (zlength [x]) with 1 in IH.
      rewrite <- !app_assoc in IH. cbn [app] in *. replace (zlength before + 1 + zlength l) with (zlength before + (1 + zlength l)) in IH by lia. rewrite IH.
      rewrite numbered_cons. cbn [flat_map]. do 2 f_equal. f_equal.
      unfold predicate_idump, predicate_text. rewrite !in_lines_cons. change (in_lines []) with (@nil ascii). rewrite app_nil_r.
      unfold line. change (indent 0) with (@nil ascii). cbn [fst snd app]. rewrite <- !app_assoc. cbn [app]. rewrite <- ?app_assoc. reflexivity. }
  apply G.
Qed.
Theorem C55_irregular_text : forall statements controls exits level,
  osl_irregular_idump (Some (Irregular statements (zlength controls) (zlength exits) (controls ++ exits))) level =
  Ok (irregular_text level statements controls exits).
Proof.
  intros st co ex level. unfold osl_irregular_idump, irregular_text. cbn [ir_statements ir_control ir_exit ir_predicates].
  rewrite (nodes_text _ (fun x => in_lines [(0, lit "statement" ++ print_Z (fst x) ++ lit "'s predicats : " ++ flat_map (fun v => print_Z v ++ lit " ") (snd x))])).
  2:{ intros n x. rewrite in_lines_cons. change (in_lines []) with (@nil ascii). rewrite app_nil_r. unfold line. change (indent 0) with (@nil ascii).
      cbn [fst snd app]. rewrite <- !app_assoc. reflexivity. }
  cbn [bind]. pose proof (predicates_text (lit "control") co [] ex) as H1. change (zlength (@nil predicate)) with 0 in H1. cbn [app] in H1.
  rewrite Z.add_0_l in H1. rewrite H1. cbn [bind]. pose proof (predicates_text (lit "exit") ex co []) as H2. rewrite app_nil_r in H2. rewrite H2. cbn [bind].
  rewrite !in_lines_cons. change (in_lines []) with (@nil ascii). rewrite !app_nil_r. rewrite indent_times. do 2 f_equal. f_equal. f_equal.
  clear. induction (numbered 0 st) as [|x l IH]; [reflexivity|]. cbn [flat_map map]. rewrite in_lines_cons, in_lines_cons. rewrite IH.
  change (in_lines []) with (@nil ascii). now rewrite app_nil_r.
Qed.
Print Assumptions C55_irregular_text.
Example C55_irregular_ex : osl_irregular_idump (Some (Irregular [[0; 1]; []] 1 1
    [Predicate [Some (lit "i"); None] (Some (lit "A[i] > 0")); Predicate [] None])) 1 = Ok (
  [chr 124; c_tab] ++ ln (lit "+-- osl_irregular_t") ++ [chr 124; c_tab; chr 124; c_tab]
  ++ ln (lit "statement0's predicats : 0 1 ") ++ ln (lit "statement1's predicats : ")
  ++ ln (lit "predicat0's") ++ ln (lit "iterators : i (null) ") ++ ln (lit "control body: A[i] > 0")
  ++ ln (lit "predicat1's") ++ ln (lit "iterators : ") ++ ln (lit "exit body: (null)") ++ ln [chr 124; c_tab; chr 124; c_tab]).
Proof. vm_compute. reflexivity. Qed.
Example C55_region_ex : osl_region_idump [Region 3 [(1, Some (lit "x"))] [] [] [(2, None)]; Region 4 [] [] [] []] 0 = Ok (
  ln (lit "+-- osl_region_t") ++ ln [] ++ ln (lit "+--location: 3") ++ [chr 124; c_tab; chr 124; c_tab] ++ ln (lit "+--type 0: 1")
  ++ ln (lit "+--line 0: x") ++ [chr 124; c_tab; chr 124; c_tab] ++ ln (lit "+--type 0: 2") ++ ln (lit "+--line 0: (null)")
  ++ ln (lit "|   osl_region_t (node 2)") ++ ln [] ++ ln (lit "+--location: 4") ++ ln []).
Proof. vm_compute. reflexivity. Qed.
