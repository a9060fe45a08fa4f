(** * Reading back printed relations from a string *)
From Coq Require Import ZifyBool ZifyNat.
From Verif Require Import Base IntModel VectorModel RelationModel UtilModel StringsModel RelTextModel
  Spec RelSpec TextSpec LoopLemmas IntProofs TextInt VectorProofs RelationProofs UtilProofs RelTextProofs
  PropStrings RelTextProofs2 RelTextProofs3.

Section T.
Context {cfg : config} (Hcfg : config_ok cfg).

Lemma sskip_to b sp l rest : blank_text b -> all_space sp ->
  (exists c t, l = c :: t /\ is_space c = false /\ c <> c_hash) ->
  osl_util_sskip_blank_and_comments (b ++ sp ++ l ++ rest) = Ok (l ++ rest).
Proof.
  intros Hb Hs (c & t & -> & Hc & Hh). rewrite app_assoc. apply sskip_eq.
  - left. apply blank_text_app; [assumption|]. now apply blank_text_spaces.
  - cbn. auto.
Qed.

Lemma read_rows_loop_s p C rest : 1 <= C -> forall rs t done junk sc b, rows_text rs t -> blank_text b ->
  Forall (good_row cfg p C) rs -> Forall (fun row => zlength row = C) junk -> List.length junk = List.length rs ->
  exists sc' b', blank_text b' /\ for_loop (List.length rs) (zlength done) (fun i st =>
    let '(m, s, sc) := st in
    s <- osl_util_sskip_blank_and_comments s ;;
    read_cells p i C m s sc) (done ++ junk, b ++ t ++ rest, sc) = Ok (done ++ rs, b' ++ rest, sc').
Proof.
  intros HC. induction rs as [|row rs IH]; intros t done junk sc b Ht Hbl Hr Hj Hl.
  - inversion Ht; subst. destruct junk; [|discriminate]. exists sc, b. split; [assumption|reflexivity].
  - inversion Ht as [|pre row' rs' w t' Hpre Hw Hb Ht']; subst. destruct junk as [|jrow junk]; [discriminate|].
    inversion Hr as [|? ? [Hr1 Hrl] Hr2]; subst. inversion Hj as [|? ? Hj1 Hj2]; subst.
    cbn [List.length for_loop].
    destruct row as [|v row]; [exfalso; unfold zlength in HC; cbn in HC; lia|].
    rewrite cells_text_cons in *. set (sp := repeat c_sp (4 - List.length (print_Z v))) in *.
    assert (Hsp : all_space sp) by (apply Forall_forall; intros c Hc; apply repeat_spec in Hc; now subst).
    set (tail := comment_head ++ w ++ c_nl :: t' ++ rest).
    replace (b ++ (pre ++ (sp ++ print_Z v ++ c_sp :: cells_text row) ++ comment_head ++ w ++ c_nl :: t') ++ rest)
      with ((b ++ pre) ++ sp ++ print_Z v ++ c_sp :: cells_text row ++ tail)
      by (unfold tail; rewrite <- ?app_assoc; cbn [app]; rewrite <- ?app_assoc; reflexivity).
    rewrite sskip_to; [|apply blank_text_app; [assumption|now apply comment_line_blank]|assumption|
      destruct (print_Z_visible v) as (_ & c & t & H & H1 & H2 & _); eauto 6].
    cbn [bind].
    destruct (read_cells_ok Hcfg p done junk jrow row v [] tail sc) as (sc' & Hc).
    + assumption.
    + assumption.
    + unfold zlength in *. cbn [List.length] in *. lia.
    + constructor.
    + cbn [app] in Hc. rewrite Hc. cbn [bind].
      replace (zlength done + 1) with (zlength (done ++ [v :: row])) by (rewrite zlength_app, zlength_one; lia).
      destruct (IH t' (done ++ [v :: row]) junk sc' (c_sp :: comment_head ++ w ++ [c_nl])) as (sc2 & b2 & Hb2 & H2); try assumption.
      * apply bt_space; [reflexivity|]. now apply comment_blank.
      * cbn [List.length] in Hl. lia.
      * exists sc2, b2. split; [assumption|]. rewrite <- ?app_assoc in H2. cbn [app] in H2.
        rewrite <- ?app_assoc in H2. exact H2.
Qed.

Lemma read_rows_s_ok p type r m t rest b sc : wf_rel cfg r -> rprec r = p -> (0 < nrows r -> 0 < ncols r) ->
  mat (nrows r) (ncols r) m -> rows_text (rm r) t -> blank_text b ->
  exists sc' b', blank_text b' /\
    read_rows_s p (mkrel type p (nrows r) (ncols r) (nout r) (nin r) (nloc r) (npar r) m)
    (b ++ t ++ rest) sc = Ok (with_type r type, b' ++ rest, sc').
Proof.
  intros Hw Hp Hpos M Ht Hb. destruct (wf_good_rows r p Hw Hp Hpos) as [Hg Hl].
  assert (Hm : Forall (fun row => zlength row = ncols r) m /\ List.length m = List.length (rm r)).
  { destruct M as (HR & HC & Hz & Hm). destruct (Z.eq_dec (nrows r) 0) as [E|E].
    - rewrite Hz by auto. rewrite E in Hl. apply zlength_0 in Hl. rewrite Hl. split; [constructor|reflexivity].
    - destruct Hm as [Hlm Hf]; [lia|lia|]. split; [assumption|]. unfold zlength in *. lia. }
  destruct Hm as [Hmf Hml].
  unfold read_rows_s, cfor. cbn [nrows ncols rm with_m rtype rprec nout nin nloc npar].
  replace (Z.to_nat (nrows r - 0)) with (List.length (rm r)) by (unfold zlength in Hl; lia).
  destruct (Z.eq_dec (nrows r) 0) as [E|E].
  - rewrite E in Hl. apply zlength_0 in Hl. rewrite Hl in *. inversion Ht; subst. destruct m; [|discriminate].
    cbn [for_loop bind List.length app]. exists sc, b. split; [assumption|]. f_equal. f_equal. f_equal.
    destruct r; cbn in Hl; subst; reflexivity.
  - pose proof (wf_nn r Hw) as [? ?].
    destruct (read_rows_loop_s p (ncols r) rest ltac:(lia) (rm r) t [] m sc b) as (sc' & b' & Hb' & H'); try assumption.
    exists sc', b'. split; [assumption|]. cbn [app] in H'. change 0 with (zlength (@nil (list Z))). refine (eq_trans (f_equal (fun x => bind x _) H') _). cbn [bind].
    f_equal. f_equal. f_equal. destruct r; cbn in Hp; subst; reflexivity.
Qed.

Lemma span_line l rest : no_nl l -> span (fun c => negb (ceqb c c_nl)) (l ++ c_nl :: rest) = (l, c_nl :: rest).
Proof. intros H. apply span_exact; [now apply not_nl_all|reflexivity]. Qed.

Lemma read_dims_s_line b l rest sc d : blank_text b -> no_nl l -> zlength l < 2048 ->
  (exists c t, l = c :: t /\ is_space c = false /\ c <> c_hash) -> scan_ints 6 l = Ok d ->
  read_dims_s (b ++ l ++ c_nl :: rest) sc = Ok (d, c_nl :: rest, Scratch (Some l) (sc_n sc)).
Proof.
  intros Hb Hn Hl Hh Hd. unfold read_dims_s.
  pose proof (sskip_to b [] l (c_nl :: rest) Hb ltac:(constructor) Hh) as E. cbn [app] in E. rewrite E. cbn [bind].
  rewrite span_line by assumption. rewrite buf_store_ok by assumption. cbn [bind]. rewrite Hd. reflexivity.
Qed.

Lemma dims_s_ok r b rest sc : int_dims r -> blank_text b ->
  exists sc', read_dims_s (b ++ dims_line r ++ c_nl :: rest) sc =
    Ok ([nrows r; ncols r; nout r; nin r; nloc r; npar r], c_nl :: rest, sc').
Proof.
  intros Hd Hb. eexists. apply read_dims_s_line.
  - assumption.
  - apply dims_no_nl.
  - pose proof (dims_length r Hd). unfold zlength. lia.
  - apply dims_head.
  - rewrite <- (app_nil_r (dims_line r)). now apply scan_ints_dims.
Qed.

Lemma blank_nl b : blank_text b -> blank_text (c_nl :: b).
Proof. intros. apply bt_space; [reflexivity|assumption]. Qed.

(** All parts as the string reader returns them, before the type is set. *)
Lemma read_parts_s_ok p rest : supported cfg p -> forall u r body t sc b,
  Forall (fun r => wf_rel cfg r /\ int_dims r /\ rprec r = p) (r :: u) -> rows_text (rm r) body ->
  (0 < nrows r -> 0 < ncols r) -> parts_text u t -> blank_text b ->
  exists b', blank_text b' /\
  read_parts_s p (List.length u) [nrows r; ncols r; nout r; nin r; nloc r; npar r]
    (b ++ body ++ t ++ rest) sc = Ok (map (fun r => with_type r UNDEFINED) (r :: u), b' ++ rest).
Proof.
  intros Hsup. induction u as [|r' u IH]; intros r body t sc b Hr Hb Hpos Ht Hbl;
    inversion Hr as [|? ? (Hw & Hd & Hp) Hr2]; subst; pose proof (wf_nn r Hw) as [HR HC];
    cbn [read_parts_s List.length];
    destruct (new_part_ok (rprec r) UNDEFINED r Hsup HR HC) as (m & -> & M); cbn [bind].
  - inversion Ht; subst. cbn [app].
    destruct (read_rows_s_ok (rprec r) UNDEFINED r m body rest b sc) as (sc' & b' & Hb' & ->); try assumption; [reflexivity|].
    exists b'. split; [assumption|reflexivity].
  - inversion Ht as [|? ? t1 t2 (pre & body2 & -> & Hpre & Hrt & Hpos2) Ht2]; subst.
    destruct (read_rows_s_ok (rprec r) UNDEFINED r m body (((pre ++ dims_line r' ++ c_nl :: body2) ++ t2) ++ rest) b sc)
      as (sc' & b1 & Hb1 & ->); try assumption; [reflexivity|]. cbn [bind].
    pose proof (Forall_inv Hr2) as (Hw' & Hd' & Hp').
    replace (b1 ++ ((pre ++ dims_line r' ++ c_nl :: body2) ++ t2) ++ rest)
      with ((b1 ++ pre) ++ dims_line r' ++ c_nl :: body2 ++ t2 ++ rest) by (rewrite <- ?app_assoc; reflexivity).
    unfold next_dims_s.
    destruct (dims_s_ok r' (b1 ++ pre) (body2 ++ t2 ++ rest) sc' Hd') as (sc2 & ->);
      [apply blank_text_app; [assumption|now apply comment_line_blank]|]. cbn [bind List.length Nat.eqb].
    destruct (IH r' body2 t2 sc2 [c_nl]) as (b2 & Hb2 & H2); try assumption.
    + apply blank_nl. constructor.
    + cbn [app] in H2. rewrite H2. cbn [bind]. exists b2. split; [assumption|reflexivity].
Qed.
End T.
