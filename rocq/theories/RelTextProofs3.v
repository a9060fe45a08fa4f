(** * Reading back printed relations: rows, parts, unions *)
From Coq Require Import ZifyBool ZifyNat.
From Verif Require Import Base IntModel VectorModel RelationModel UtilModel StringsModel RelTextModel
  Spec RelSpec TextSpec LoopLemmas IntProofs TextInt VectorProofs RelationProofs UtilProofs RelTextProofs
  PropStrings RelTextProofs2.

(** [width C row]: rows as the reader wants them *)
Definition good_row (cfg : config) (p C : Z) (row : list Z) : Prop :=
  Forall (representable cfg p) row /\ zlength row = C.

Lemma short_lines_left a b : short_lines (a ++ b) -> short_lines a.
Proof. intros H x y z -> Hn. apply (H x y (z ++ b)); [now rewrite <- !app_assoc|assumption]. Qed.

(** Skipping comment lines, then a line starting with blanks. *)
Lemma skip_file_row pre sp l r e : comment_line pre -> short_lines pre -> only_sp sp -> no_nl l ->
  (List.length (sp ++ l) <= 2046)%nat ->
  (exists c t, l = c :: t /\ is_space c = false /\ c <> c_hash) ->
  osl_util_skip_blank_and_comments (File (pre ++ sp ++ l ++ c_nl :: r) e) = Ok (Some (l ++ [c_nl]), File r e).
Proof.
  intros Hp. induction Hp as [|w p Hw Hp IH]; intros Hs Hsp Hn Hl Hh.
  - cbn [app]. unfold osl_util_skip_blank_and_comments. cbn [skip_lines].
    assert (Hn' : no_nl (sp ++ l)).
    { apply no_nl_app. split; [|assumption]. intros Hi. unfold only_sp in Hsp. rewrite Forall_forall in Hsp.
      specialize (Hsp _ Hi). discriminate. }
    rewrite app_assoc, fgets_line by assumption.
    destruct Hh as (c & t & -> & Hc & Hh).
    rewrite <- app_assoc. cbn [app].
    rewrite (span_exact is_blank sp (c :: t ++ [c_nl])).
    + cbn [snd]. replace (ceqb c c_hash) with false by (symmetry; apply ceqb_neq; assumption).
      destruct (ceqb c c_nl) eqn:E; [|reflexivity]. apply ceqb_eq in E. subst. exfalso. apply Hn. now left.
    + revert Hsp. apply Forall_impl. intros a ->. reflexivity.
    + cbn. unfold is_blank. now rewrite Hc.
  - change ((c_hash :: w ++ c_nl :: p) ++ sp ++ l ++ c_nl :: r) with ((c_hash :: (w ++ c_nl :: p) ++ sp ++ l ++ c_nl :: r)).
    rewrite <- app_assoc. cbn [app].
    change (c_hash :: w ++ c_nl :: p ++ sp ++ l ++ c_nl :: r) with ((c_hash :: w) ++ c_nl :: p ++ sp ++ l ++ c_nl :: r).
    change (c_hash :: w ++ c_nl :: p) with ((c_hash :: w) ++ c_nl :: p) in Hs.
    apply skip_file_step.
    + intros [E|Hi]; [discriminate|auto].
    + eapply short_lines_head; [exact Hs|]. intros [E|Hi]; [discriminate|auto].
    + right. exists [], w. split; [reflexivity|constructor].
    + apply IH; try assumption. apply (short_lines_tail ((c_hash :: w) ++ [c_nl])). rewrite <- app_assoc. exact Hs.
Qed.

Lemma skip_file_row0 pre l r e : comment_line pre -> short_lines pre -> no_nl l ->
  (List.length l <= 2046)%nat ->
  (exists c t, l = c :: t /\ is_space c = false /\ c <> c_hash) ->
  osl_util_skip_blank_and_comments (File (pre ++ l ++ c_nl :: r) e) = Ok (Some (l ++ [c_nl]), File r e).
Proof. intros. apply (skip_file_row pre [] l r e); try assumption. constructor. Qed.

Section T.
Context {cfg : config} (Hcfg : config_ok cfg).

Lemma cells_text_cons v row : cells_text (v :: row) =
  repeat c_sp (4 - List.length (print_Z v)) ++ print_Z v ++ c_sp :: cells_text row.
Proof. unfold cells_text. cbn [map concat]. unfold pad4. rewrite <- !app_assoc. reflexivity. Qed.

Lemma cells_no_nl row : no_nl (cells_text row).
Proof.
  induction row as [|v row IH]; [apply no_nl_nil|]. rewrite cells_text_cons.
  apply no_nl_app. split; [intros Hi; apply repeat_spec in Hi; discriminate|].
  apply no_nl_app. split; [apply print_Z_no_nl|]. intros [E|Hi]; [discriminate|auto].
Qed.

Lemma comment_no_nl w : no_nl w -> no_nl (comment_head ++ w).
Proof. intros H. apply no_nl_app. split; [apply no_nl_lit; reflexivity|assumption]. Qed.

(** ** Rows, from a file *)
Lemma read_rows_loop_fB p C rest e B : 1 <= C -> forall rs t done junk sc, rows_text rs t -> short_lines t ->
  Forall (good_row cfg p C) rs -> Forall (fun row => zlength row = C) junk -> List.length junk = List.length rs ->
  exists sc', for_loop (List.length rs) (zlength done) (fun i s =>
    let '(m, f, sc) := s in
    '(o, f) <- osl_util_skip_blank_and_comments f ;;
    match o with
    | None => Err
    | Some c => '(m, _, sc) <- read_cells p i C m c sc ;; Ok (m, f, sc)
    end) (done ++ junk ++ B, File (t ++ rest) e, sc) = Ok (done ++ rs ++ B, File rest e, sc').
Proof.
  intros HC. induction rs as [|row rs IH]; intros t done junk sc Ht Hs Hr Hj Hl.
  - inversion Ht; subst. destruct junk; [|discriminate]. exists sc. reflexivity.
  - inversion Ht as [|pre row' rs' w t' Hpre Hw Hb Ht']; subst. destruct junk as [|jrow junk]; [discriminate|].
    inversion Hr as [|? ? [Hr1 Hrl] Hr2]; subst. inversion Hj as [|? ? Hj1 Hj2]; subst.
    cbn [List.length for_loop].
    destruct row as [|v row]; [exfalso; unfold zlength in HC; cbn in HC; lia|].
    rewrite cells_text_cons in *. set (sp := repeat c_sp (4 - List.length (print_Z v))) in *.
    assert (Hsp : only_sp sp) by (apply Forall_forall; intros c Hc; now apply repeat_spec in Hc).
    set (l := print_Z v ++ c_sp :: cells_text row ++ comment_head ++ w).
    assert (Et : pre ++ (sp ++ print_Z v ++ c_sp :: cells_text row) ++ comment_head ++ w ++ c_nl :: t' = pre ++ sp ++ l ++ c_nl :: t').
    { unfold l. rewrite <- !app_assoc. cbn [app]. rewrite <- !app_assoc. reflexivity. }
    rewrite Et in *. clear Et.
    assert (Hln : no_nl l).
    { unfold l. apply no_nl_app. split; [apply print_Z_no_nl|]. intros [E|Hi]; [discriminate|].
      revert Hi. apply no_nl_app. split; [apply cells_no_nl|now apply comment_no_nl]. }
    assert (Hspl : no_nl sp) by (intros Hi; apply repeat_spec in Hi; discriminate).
    replace ((pre ++ sp ++ l ++ c_nl :: t') ++ rest) with (pre ++ sp ++ l ++ c_nl :: t' ++ rest)
      by (rewrite <- !app_assoc; reflexivity).
    rewrite skip_file_row; try assumption.
    2: { eapply short_lines_left. exact Hs. }
    2: { apply short_lines_tail in Hs. rewrite app_assoc in Hs. eapply short_lines_head; [exact Hs|].
         apply no_nl_app. split; assumption. }
    2: { destruct (print_Z_visible v) as (_ & c & t & Hp & H1 & H2 & _). unfold l. rewrite Hp. cbn [app]. eauto 6. }
    cbn [bind].
    destruct (read_cells_ok Hcfg p done (junk ++ B) jrow row v [] (comment_head ++ w ++ [c_nl]) sc) as (sc' & Hc).
    + assumption.
    + assumption.
    + unfold zlength in *. cbn [List.length] in *. lia.
    + constructor.
    + assert (El : l ++ [c_nl] = [] ++ print_Z v ++ c_sp :: cells_text row ++ comment_head ++ w ++ [c_nl]).
      { unfold l. rewrite <- !app_assoc. cbn [app]. rewrite <- !app_assoc. reflexivity. }
      rewrite El. cbn [app] in Hc |- *. rewrite Hc. cbn [bind].
      replace (zlength done + 1) with (zlength (done ++ [v :: row])) by (rewrite zlength_app, zlength_one; lia).
      destruct (IH t' (done ++ [v :: row]) junk sc') as (sc2 & H2); try assumption.
      * apply short_lines_tail, short_lines_tail in Hs. apply (short_lines_tail (l ++ [c_nl])).
        rewrite <- app_assoc. exact Hs.
      * cbn [List.length] in Hl. lia.
      * exists sc2. rewrite <- !app_assoc in H2. exact H2.
Qed.
Lemma read_rows_loop_f p C rest e : 1 <= C -> forall rs t done junk sc, rows_text rs t -> short_lines t ->
  Forall (good_row cfg p C) rs -> Forall (fun row => zlength row = C) junk -> List.length junk = List.length rs ->
  exists sc', for_loop (List.length rs) (zlength done) (fun i s =>
    let '(m, f, sc) := s in
    '(o, f) <- osl_util_skip_blank_and_comments f ;;
    match o with
    | None => Err
    | Some c => '(m, _, sc) <- read_cells p i C m c sc ;; Ok (m, f, sc)
    end) (done ++ junk, File (t ++ rest) e, sc) = Ok (done ++ rs, File rest e, sc').
Proof.
  intros HC rs t done junk sc H1 H2 H3 H4 H5.
  destruct (read_rows_loop_fB p C rest e [] HC rs t done junk sc H1 H2 H3 H4 H5) as (sc' & E).
  rewrite !app_nil_r in E. eauto.
Qed.

Lemma new_part_ok p type r : supported cfg p -> 0 <= nrows r -> 0 <= ncols r -> exists m,
  new_part p type [nrows r; ncols r; nout r; nin r; nloc r; npar r] =
  Ok (mkrel type p (nrows r) (ncols r) (nout r) (nin r) (nloc r) (npar r) m) /\ mat (nrows r) (ncols r) m.
Proof.
  intros Hp HR HC. unfold new_part. destruct (pmalloc_ok p _ _ Hp HR HC) as (m & -> & M & _).
  cbn [bind rprec nrows ncols rm]. eauto.
Qed.

Lemma wf_good_rows r p : wf_rel cfg r -> rprec r = p -> (0 < nrows r -> 0 < ncols r) ->
  Forall (good_row cfg p (ncols r)) (rm r) /\ zlength (rm r) = nrows r.
Proof.
  intros (Hs & HR & HC & Hz & Hm & Hrep) <- Hpos.
  destruct (Z.eq_dec (nrows r) 0) as [E|E].
  - rewrite Hz by auto. rewrite E. split; [constructor|reflexivity].
  - destruct Hm as [Hl Hf]; [lia|lia|]. split; [|assumption].
    rewrite Forall_forall in *. intros row Hi. split; auto.
Qed.

Lemma read_rows_f_ok p r m t rest e sc : wf_rel cfg r -> rprec r = p -> (0 < nrows r -> 0 < ncols r) ->
  mat (nrows r) (ncols r) m -> rows_text (rm r) t -> short_lines t ->
  exists sc', read_rows_f p (mkrel (rtype r) p (nrows r) (ncols r) (nout r) (nin r) (nloc r) (npar r) m)
    (File (t ++ rest) e) sc = Ok (r, File rest e, sc').
Proof.
  intros Hw Hp Hpos M Ht Hs. destruct (wf_good_rows r p Hw Hp Hpos) as [Hg Hl].
  assert (Hm : Forall (fun row => zlength row = ncols r) m /\ List.length m = List.length (rm r)).
  { destruct M as (HR & HC & Hz & Hm). destruct (Z.eq_dec (nrows r) 0) as [E|E].
    - rewrite Hz by auto. rewrite E in Hl. apply zlength_0 in Hl. rewrite Hl. split; [constructor|reflexivity].
    - destruct Hm as [Hlm Hf]; [lia|lia|]. split; [assumption|]. unfold zlength in *. lia. }
  destruct Hm as [Hmf Hml].
  unfold read_rows_f, cfor. cbn [nrows ncols rm with_m rtype rprec nout nin nloc npar].
  replace (Z.to_nat (nrows r - 0)) with (List.length (rm r)) by (unfold zlength in Hl; lia).
  destruct (Z.eq_dec (nrows r) 0) as [E|E].
  - rewrite E in Hl. apply zlength_0 in Hl. rewrite Hl in *. inversion Ht; subst. destruct m; [|discriminate].
    cbn [for_loop bind List.length app]. exists sc. f_equal. f_equal. f_equal.
    destruct r; cbn in Hl; subst; reflexivity.
  - pose proof (wf_nn r Hw) as [? ?].
    destruct (read_rows_loop_f p (ncols r) rest e ltac:(lia) (rm r) t [] m sc) as (sc' & H'); try assumption.
    exists sc'. cbn [app] in H'. change 0 with (zlength (@nil (list Z))). rewrite H'. cbn [bind].
    f_equal. f_equal. f_equal. destruct r; cbn in Hp; subst; reflexivity.
Qed.

(** ** Attribute lines *)
Lemma scan_ints_dims r rest : int_dims r -> no_digit_head rest ->
  scan_ints 6 (dims_line r ++ rest) = Ok [nrows r; ncols r; nout r; nin r; nloc r; npar r].
Proof.
  intros (H1 & H2 & H3 & H4 & H5 & H6) Hr. unfold dims_line. rewrite <- !app_assoc.
  assert (F : forall v, c_int v -> fits 32 v = true).
  { intros v Hv. unfold c_int in Hv. unfold fits, smin, smax. change (32 - 1) with 31. lia. }
  cbn [scan_ints].
  rewrite scan_print_nospace, F by (assumption || reflexivity). 
  do 4 (rewrite scan_Z_skip by (repeat constructor); rewrite scan_print_nospace, F by (assumption || reflexivity)).
  rewrite scan_Z_skip by (repeat constructor).
  rewrite scan_print_nospace, F by assumption. reflexivity.
Qed.
Lemma dims_head r : exists c t, dims_line r = c :: t /\ is_space c = false /\ c <> c_hash.
Proof.
  destruct (print_Z_visible (nrows r)) as (_ & c & t & H & H1 & H2 & _). unfold dims_line. rewrite H. cbn [app]. eauto 6.
Qed.

Lemma next_dims_f_ok r pre rest e : int_dims r -> comment_line pre -> short_lines pre ->
  next_dims_f (File (pre ++ dims_line r ++ c_nl :: rest) e)
  = Ok ([nrows r; ncols r; nout r; nin r; nloc r; npar r], File rest e).
Proof.
  intros Hd Hp Hs. unfold next_dims_f, read_dims_f.
  rewrite (skip_file_row0 pre (dims_line r) rest e); try assumption; [|apply dims_no_nl| |apply dims_head].
  2: { pose proof (dims_length r Hd). cbn [app]. lia. }
  cbn [bind]. rewrite scan_ints_dims by (assumption || reflexivity). reflexivity.
Qed.
Lemma first_dims_f_one r pre rest e : int_dims r -> comment_line pre -> short_lines pre ->
  first_dims_f (File (pre ++ dims_line r ++ c_nl :: rest) e)
  = Ok (1, [nrows r; ncols r; nout r; nin r; nloc r; npar r], File rest e).
Proof.
  intros Hd Hp Hs. unfold first_dims_f, read_dims_f.
  rewrite (skip_file_row0 pre (dims_line r) rest e); try assumption; [|apply dims_no_nl| |apply dims_head].
  2: { pose proof (dims_length r Hd). cbn [app]. lia. }
  cbn [bind]. rewrite scan_ints_dims by (assumption || reflexivity). reflexivity.
Qed.
Lemma scan_ints_one n : c_int n -> forall rest, scan_Z rest = None ->
  no_digit_head rest -> scan_ints 6 (print_Z n ++ rest) = Ok [n].
Proof.
  intros Hn rest Hr Hd. cbn [scan_ints]. rewrite scan_print_nospace by assumption.
  replace (fits 32 n) with true by (symmetry; unfold c_int in Hn; unfold fits, smin, smax; change (32 - 1) with 31; lia).
  rewrite Hr. reflexivity.
Qed.

Lemma first_dims_f_union n r pre pre' rest e : int_dims r -> c_int n -> 1 <= n ->
  comment_line pre -> short_lines pre -> comment_line pre' -> short_lines pre' ->
  first_dims_f (File (pre ++ print_Z n ++ c_nl :: pre' ++ dims_line r ++ c_nl :: rest) e)
  = Ok (n, [nrows r; ncols r; nout r; nin r; nloc r; npar r], File rest e).
Proof.
  intros Hd Hn Hn1 Hp Hs Hp' Hs'. unfold first_dims_f, read_dims_f.
  rewrite (skip_file_row0 pre (print_Z n) (pre' ++ dims_line r ++ c_nl :: rest) e); try assumption; [|apply print_Z_no_nl| |].
  2: { pose proof (int_length n Hn). cbn [app]. lia. }
  2: { destruct (print_Z_visible n) as (_ & c & t & H & H1 & H2 & _). eauto 6. }
  cbn [bind]. rewrite scan_ints_one by (assumption || reflexivity). cbn [bind].
  destruct (Z.ltb_spec n 1); [lia|]. rewrite next_dims_f_ok by assumption. reflexivity.
Qed.

(** ** The parts, from a file *)
Definition readable (p type : Z) (r : relation) : Prop :=
  wf_rel cfg r /\ int_dims r /\ rprec r = p /\ rtype r = type.

Lemma read_parts_f_ok p type rest e : supported cfg p -> forall u r body t sc,
  Forall (readable p type) (r :: u) -> rows_text (rm r) body -> (0 < nrows r -> 0 < ncols r) ->
  parts_text u t -> short_lines body -> short_lines t ->
  read_parts_f p type (List.length u) [nrows r; ncols r; nout r; nin r; nloc r; npar r]
    (File (body ++ t ++ rest) e) sc = Ok (r :: u, File rest e).
Proof.
  intros Hsup. induction u as [|r' u IH]; intros r body t sc Hr Hb Hpos Ht Hsb Hst;
    inversion Hr as [|? ? (Hw & Hd & Hp & Hty) Hr2]; subst; pose proof (wf_nn r Hw) as [HR HC];
    cbn [read_parts_f List.length];
    destruct (new_part_ok (rprec r) (rtype r) r Hsup HR HC) as (m & -> & M); cbn [bind].
  - inversion Ht; subst. cbn [app].
    destruct (read_rows_f_ok (rprec r) r m body rest e sc) as (sc' & ->); try assumption; reflexivity.
  - inversion Ht as [|? ? t1 t2 (pre & body2 & -> & Hpre & Hrt & Hpos2) Ht2]; subst.
    destruct (read_rows_f_ok (rprec r) r m body (((pre ++ dims_line r' ++ c_nl :: body2) ++ t2) ++ rest) e sc) as (sc' & ->);
      try assumption; [reflexivity|]. cbn [bind].
    pose proof (Forall_inv Hr2) as (Hw' & Hd' & Hp' & Hty').
    replace (((pre ++ dims_line r' ++ c_nl :: body2) ++ t2) ++ rest)
      with (pre ++ dims_line r' ++ c_nl :: body2 ++ t2 ++ rest) by (rewrite <- !app_assoc; reflexivity).
    apply short_lines_left in Hst as Hst1. apply short_lines_tail in Hst as Hst2.
    rewrite next_dims_f_ok; [|assumption|assumption|eapply short_lines_left; exact Hst1]. cbn [bind].
    rewrite (IH r' body2 t2 sc'); try assumption.
    + reflexivity.
    + apply short_lines_tail in Hst1. apply (short_lines_tail (dims_line r' ++ [c_nl])).
      rewrite <- app_assoc. exact Hst1.
Qed.
End T.
