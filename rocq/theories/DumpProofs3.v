(** * DumpProofs3: the text of the dump of relations and vectors; lines and numbers can be read back *)
From Verif Require Import Base Spec RelSpec TextSpec IntModel IntProofs VectorModel RelationModel RelationProofs UtilModel StringsModel RelTextModel LoopLemmas
  UtilProofs TextInt RelTextProofs RelTextProofs2 PropExpr2 SaveProofs ExtModel ScopModel IrregModel DumpModel DumpSpec DumpProofs DumpProofs2.

(** ** Exact texts *)
Lemma collect {A} (d : A) (g : A -> str) l body : (forall i s, 0 <= i < zlength l -> body i s = Ok (s ++ g (znth d l i))) ->
  cfor 0 (zlength l) body [] = Ok (flat_map g l).
Proof.
  intros H. pose proof (zlength_nonneg l) as Hl.
  destruct (cfor_inv (fun i s => s = flat_map g (firstn (Z.to_nat i) l)) 0 (zlength l) body []) as (s & E & X); [exact Hl|reflexivity| |].
  - intros i s Hi ->. exists (flat_map g (firstn (Z.to_nat i) l) ++ g (znth d l i)). split; [now apply H|].
    rewrite (firstn_next d) by exact Hi. rewrite flat_map_app. cbn [flat_map]. now rewrite app_nil_r.
  - rewrite E, X. do 2 f_equal. apply firstn_all2. unfold zlength. lia.
Qed.
Lemma line_times level s : line level s = times (Z.to_nat level) [chr 124; chr 9] ++ s ++ [c_nl].
Proof. unfold line. now rewrite indent_times. Qed.
Lemma in_lines_cons l s r : in_lines ((l, s) :: r) = line l s ++ in_lines r.
Proof. unfold in_lines. cbn [map concat fst snd]. now rewrite line_times. Qed.
Lemma in_lines_app a b : in_lines (a ++ b) = in_lines a ++ in_lines b.
Proof. unfold in_lines. now rewrite map_app, concat_app. Qed.

Section EXACT.
Context {cfg : config}.
Lemma int_print_ok p v : supported cfg p -> dumpable_int v -> osl_int_print p v = Ok (pad4 (print_Z v)).
Proof.
  intros Hp Hv. unfold osl_int_print, osl_int_sprint.
  assert (E : pswitch p (Ok (pad4 (print_Z v))) (Ok (pad4 (print_Z v))) = Ok (pad4 (print_Z v))).
  { unfold pswitch. destruct Hp as [-> | [-> | [-> Hg]]]; try reflexivity. unfold is_mp. rewrite Hg. reflexivity. }
  rewrite E. cbn [bind]. unfold buf_store.
  assert (zlength (pad4 (print_Z v)) < MAX_STRING).
  { assert (L : (List.length (print_Z v) <= 2047)%nat).
    { apply print_Z_length; [lia|]. unfold dumpable_int in Hv. change (Z.of_nat 2046) with 2046. apply Z.abs_lt in Hv. exact Hv. }
    unfold zlength, pad4. rewrite app_length, repeat_length. unfold MAX_STRING. lia. }
  destruct (Z.ltb_spec (zlength (pad4 (print_Z v))) MAX_STRING); [reflexivity|lia].
Qed.
Lemma vector_text v level : dumpable_vector cfg v ->
  osl_vector_idump (Some v) level =
  Ok (in_lines [(level, lit "+-- osl_vector_t (" ++ precision_text (vprec v) ++ lit ")"); (level + 1, print_Z (vsize v));
                (level + 1, lit "[ " ++ spaced (vv v) ++ lit "]"); (level + 1, [])]).
Proof.
  intros [(Hp & Hs & _) Hv]. unfold osl_vector_idump. rewrite Hs.
  rewrite (collect 0 (fun v => pad4 (print_Z v) ++ [c_sp]) (vv v)).
  2:{ intros i s Hi. rewrite (aget_ok 0) by exact Hi. cbn [bind]. rewrite int_print_ok; [reflexivity|exact Hp|].
      rewrite (Forall_znth _ 0) in Hv. now apply Hv. }
  cbn [bind]. rewrite !in_lines_cons. change (in_lines []) with (@nil ascii). rewrite app_nil_r. rewrite <- ?app_assoc.
  assert (osl_int_dump_precision (vprec v) = precision_text (vprec v)) as ->; [|reflexivity].
  unfold osl_int_dump_precision, precision_text. destruct Hp as [-> | [-> | [-> Hg]]]; try reflexivity. rewrite Hg. reflexivity.
Qed.
Lemma precision_ok p : supported cfg p -> osl_int_dump_precision p = precision_text p.
Proof. unfold osl_int_dump_precision, precision_text. intros [-> | [-> | [-> Hg]]]; try reflexivity. rewrite Hg. reflexivity. Qed.
Lemma title_ok r : supported cfg (rprec r) -> relation_title r = part_name r.
Proof. intros H. unfold relation_title, part_name. rewrite precision_ok by exact H. reflexivity. Qed.
Lemma part_ok level n r : dumpable_relation cfg r ->
  part_idump level n r = Ok (next_title n level (lit "|   " ++ part_name r) ++ in_lines (part_lines level r)).
Proof.
  intros [W D]. pose proof (rows_length r W) as HR. pose proof (rows_width r W) as HC. unfold part_idump.
  rewrite <- HR at 1. rewrite (collect [] (fun row => line (level + 1) (lit "[ " ++ spaced row ++ lit "]")) (rows r)).
  - cbn [bind]. rewrite title_ok by apply W. unfold part_lines. rewrite in_lines_cons. do 3 f_equal.
    clear. induction (rows r) as [|row l IH]; [reflexivity|]. cbn [flat_map map]. rewrite in_lines_cons. now rewrite IH.
  - intros i s Hi. unfold row_idump.
    assert (Hw : zlength (znth [] (rows r) i) = ncols r) by (rewrite (Forall_znth _ []) in HC; now apply HC).
    rewrite <- Hw at 1. rewrite (collect 0 (fun v => pad4 (print_Z v) ++ [c_sp]) (znth [] (rows r) i)); [reflexivity|].
    intros j s' Hj. rewrite Hw in Hj.
    assert (E : mget (rm r) i j = Ok (znth 0 (znth [] (rows r) i) j)).
    { rewrite (mget_ok _ _ _ i j (wf_mat r W)) by lia. unfold cell. f_equal. f_equal. f_equal. unfold rows. destruct (Z.eqb_spec (ncols r) 0); [lia|reflexivity]. }
    rewrite E. cbn [bind]. rewrite int_print_ok; [reflexivity|apply W|].
    rewrite (Forall_znth _ []) in D. specialize (D i Hi). rewrite (Forall_znth _ 0) in D. apply D. lia.
Qed.
Lemma parts_ok level u n : 1 < n -> dumpable_union cfg u ->
  nodes (part_idump level) (line (level + 1) (lit "|") ++ line (level + 1) (lit "V")) n u =
  Ok (match u with
      | [] => []
      | r :: tl => line level (lit "|   " ++ part_name r) ++ in_lines (part_lines level r)
          ++ in_lines (flat_map (fun r => [(level + 1, lit "|"); (level + 1, lit "V"); (level, lit "|   " ++ part_name r)] ++ part_lines level r) tl)
      end).
Proof.
  intros Hn H. revert n Hn. induction H as [|r u Hr Hu IH]; intros n Hn; [reflexivity|]. cbn [nodes]. fold (nodes (part_idump level) (line (level + 1) (lit "|") ++ line (level + 1) (lit "V"))).
  rewrite part_ok by exact Hr. cbn [bind]. rewrite IH by lia. cbn [bind]. unfold next_title. destruct (Z.eqb_spec n 1); [lia|].
  rewrite <- !app_assoc. do 3 f_equal. destruct u as [|r' u]; [reflexivity|]. cbn [flat_map]. rewrite !in_lines_app, !in_lines_cons.
  change (in_lines []) with (@nil ascii). rewrite <- ?app_assoc. reflexivity.
Qed.
Lemma union_text u level : dumpable_union cfg u -> osl_relation_idump u level = Ok (in_lines (union_lines level u)).
Proof.
  intros H. unfold osl_relation_idump. destruct H as [|r u Hr Hu].
  - cbn [nodes bind]. cbv [union_lines app]. rewrite !in_lines_cons. change (in_lines []) with (@nil ascii). now rewrite app_nil_r.
  - cbn [nodes]. fold (nodes (part_idump level) (line (level + 1) (lit "|") ++ line (level + 1) (lit "V"))).
    rewrite part_ok by exact Hr. cbn [bind]. rewrite parts_ok by (exact Hu || lia). cbn [bind].
    unfold union_lines. rewrite in_lines_app, !in_lines_cons, !in_lines_app. change (in_lines []) with (@nil ascii).
    rewrite title_ok by apply Hr. unfold next_title. cbn [Z.eqb Pos.eqb app]. rewrite <- ?app_assoc. do 3 f_equal.
    rewrite app_nil_r. destruct u as [|r' u]; [reflexivity|]. cbn [flat_map]. rewrite !in_lines_app, !in_lines_cons. change (in_lines []) with (@nil ascii).
    rewrite <- ?app_assoc. reflexivity.
Qed.
End EXACT.
