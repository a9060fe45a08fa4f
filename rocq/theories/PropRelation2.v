(** * Properties C07 (relations), C16-C19, C39 *)
From Coq Require Import ZifyBool ZifyNat.
From Verif Require Import Base IntModel VectorModel RelationModel Spec RelSpec LoopLemmas IntProofs VectorProofs
  RelationProofs RelationProofs2 RelationProofs3 RelationProofs4.

(** ** C07: precision changes on relations *)
Definition same_but_precision (p : Z) (r : relation) : relation :=
  mkrel (rtype r) p (nrows r) (ncols r) (nout r) (nin r) (nloc r) (npar r) (rm r).

Theorem C07_relation_set_precision : forall (cfg : config) (u : list relation) (p : Z),
  config_ok cfg -> wf_union cfg u -> supported cfg p ->
  Forall (fun r => Forall (Forall c_int) (rows r)) u ->
  osl_relation_set_precision p u = Ok (map (same_but_precision p) u) /\
  wf_union cfg (map (same_but_precision p) u).
Proof.
  intros cfg u p Hc W Hp HF. split.
  - apply mapM_ok. revert HF. induction W as [|r u Hr W IH]; intros HF; constructor.
    + apply set_precision_part_ok; auto. exact (Forall_inv HF).
    + apply IH. exact (Forall_inv_tail HF).
  - revert HF. induction W as [|r u Hr W IH]; intros HF; cbn [map]; constructor.
    + apply Forall_inv in HF. pose proof Hr as (H1 & H2 & H3 & H4 & H5 & H6).
      unfold wf_rel, same_but_precision; cbn [rprec nrows ncols rm]. repeat (split; auto).
      unfold rows in HF. destruct (Z.eqb_spec (ncols r) 0) as [e|e].
      * rewrite H4 by auto. constructor.
      * eapply Forall_impl; [|exact HF]. intros row Hrow. eapply Forall_impl; [|exact Hrow].
        intros v Hv. apply representable_int; auto.
    + apply IH. exact (Forall_inv_tail HF).
Qed.
Print Assumptions C07_relation_set_precision.

(** Both relations end with the larger of the two precisions (64 bits before
    32, arbitrary before both), their coefficients unchanged. *)
Theorem C07_relation_set_same_precision : forall (cfg : config) (a b : relation) (ra rb : list relation),
  config_ok cfg -> wf_union cfg (a :: ra) -> wf_union cfg (b :: rb) ->
  Forall (fun r => Forall (Forall c_int) (rows r) /\ rprec r = rprec a) (a :: ra) ->
  Forall (fun r => Forall (Forall c_int) (rows r) /\ rprec r = rprec b) (b :: rb) ->
  let p := if (rprec a =? 0) || (rprec b =? 0) then 0 else Z.max (rprec a) (rprec b) in
  osl_relation_set_same_precision (a :: ra) (b :: rb) =
    Ok (map (same_but_precision p) (a :: ra), map (same_but_precision p) (b :: rb)).
Proof.
  intros cfg a b ra rb Hc Wa Wb Fa Fb p.
  pose proof (wf_supp a (Forall_inv Wa)) as Sa. pose proof (wf_supp b (Forall_inv Wb)) as Sb.
  assert (Hp : supported cfg p).
  { unfold p, supported in *. destruct Sa as [->|[->|[-> ?]]], Sb as [->|[->|[-> ?]]]; cbn; auto. }
  assert (Ka : osl_relation_set_precision p (a :: ra) = Ok (map (same_but_precision p) (a :: ra))).
  { apply C07_relation_set_precision; auto. eapply Forall_impl; [|exact Fa]. intros x [K _]; exact K. }
  assert (Kb : osl_relation_set_precision p (b :: rb) = Ok (map (same_but_precision p) (b :: rb))).
  { apply C07_relation_set_precision; auto. eapply Forall_impl; [|exact Fb]. intros x [K _]; exact K. }
  assert (Kid : forall r u, Forall (fun x => Forall (Forall c_int) (rows x) /\ rprec x = rprec r) u ->
     map (same_but_precision (rprec r)) u = u).
  { intros r u HF. induction HF as [|x u [_ Hx] HF IH]; [reflexivity|]. cbn [map]. f_equal; [|exact IH].
    unfold same_but_precision. rewrite <- Hx. destruct x; reflexivity. }
  unfold osl_relation_set_same_precision, PRECISION_MP, PRECISION_DP.
  destruct (Z.eqb_spec (rprec a) (rprec b)) as [e|e]; cbn [negb].
  - assert (Epa : p = rprec a).
    { unfold p. rewrite <- e. destruct (Z.eqb_spec (rprec a) 0); cbn [orb]; lia. }
    rewrite Epa at 1. rewrite (Kid a) by assumption. rewrite Epa, e. rewrite (Kid b) by assumption. reflexivity.
  - destruct ((rprec a =? 0) || (rprec b =? 0)) eqn:E1.
    + assert (Ep : p = 0) by (unfold p; rewrite ?E1; reflexivity).
      clearbody p. subst p. rewrite Ka. cbn [bind]. rewrite Kb. reflexivity.
    + assert (Ep : p = 64).
      { unfold p. rewrite ?E1. unfold supported in *. lia. }
      replace ((rprec a =? 64) || (rprec b =? 64)) with true by (unfold supported in *; lia).
      clearbody p. subst p. rewrite Ka. cbn [bind]. rewrite Kb. reflexivity.
Qed.
Print Assumptions C07_relation_set_same_precision.

(** A coefficient representable in the target precision but not in an [int] is
    not preserved: the checked build stops, the release build truncates. *)
Theorem C07_relation_set_precision_refuted :
  let r := mkrel TYPE_DOMAIN 64 1 3 1 0 0 0 [[1; 1; 4294967297]] in
  wf_union lp64_debug [r] /\ representable lp64_debug 0 4294967297 /\
  @osl_relation_set_precision lp64_debug 0 [r] = Err /\
  exists r', @osl_relation_set_precision lp64_release 0 [r] = Ok [r'] /\ rm r' = [[1; 1; 1]].
Proof.
  cbv zeta. split; [|split; [|split]].
  - constructor; [|constructor]. unfold wf_rel; cbn [rtype rprec nrows ncols nout nin nloc npar rm]; wf_lit.
  - unfold representable; cbn; lia.
  - reflexivity.
  - eexists. split; reflexivity.
Qed.
Print Assumptions C07_relation_set_precision_refuted.

(** ** C16: extension of the output dimensions *)

(** The attributes are known and coherent with the number of columns. *)
Definition dims_known (r : relation) : Prop :=
  0 <= nout r /\ 0 <= nin r /\ 0 <= nloc r /\ 0 <= npar r /\
  ncols r = nout r + nin r + nloc r + npar r + 2.

Theorem C16_extend_output : forall (cfg : config) (first : relation) (rest : list relation) (dim : Z),
  config_ok cfg -> wf_union cfg (first :: rest) ->
  Forall dims_known (first :: rest) -> Forall (fun r => rprec r = rprec first) rest ->
  Forall (fun r => nout r <= dim) (first :: rest) ->
  exists u', osl_relation_extend_output (first :: rest) dim = Ok u' /\ wf_union cfg u' /\
    Forall2 (fun r r' =>
        nout r' = dim /\ nin r' = nin r /\ nloc r' = nloc r /\ npar r' = npar r /\
        rtype r' = rtype r /\ rprec r' = rprec r /\
        forall out z inp par, zlength out = nout r ->
          (relates r' (out ++ z) inp par <->
             relates r out inp par /\ zlength z = dim - nout r /\ Forall (fun v => v = 0) z))
      (first :: rest) u'.
Proof.
  intros cfg first rest dim Hc W D P N.
  set (ext := fun r => with_attrs (with_rows r (ncols r + (dim - nout r)) (extended_rows r (dim - nout r)))
                         dim (nin r) (nloc r) (npar r)).
  exists (map ext (first :: rest)).
  assert (A : Forall (fun r => rprec r = rprec first) (first :: rest)) by (constructor; auto).
  split; [|split].
  - unfold osl_relation_extend_output. apply mapM_ok.
    apply Forall_forall. intros r Hr.
    pose proof (proj1 (Forall_forall _ _) W r Hr) as Wr. pose proof (proj1 (Forall_forall _ _) D r Hr) as Dr.
    pose proof (proj1 (Forall_forall _ _) A r Hr) as Ar. pose proof (proj1 (Forall_forall _ _) N r Hr) as Nr.
    cbn beta in *. rewrite <- Ar. destruct Dr as (D1 & D2 & D3 & D4 & D5).
    apply extend_part_ok; auto; lia.
  - unfold wf_union. apply Forall_map. apply Forall_forall. intros r Hr.
    pose proof (proj1 (Forall_forall _ _) W r Hr) as Wr. pose proof (proj1 (Forall_forall _ _) D r Hr) as Dr.
    pose proof (proj1 (Forall_forall _ _) N r Hr) as Nr. cbn beta in *.
    destruct Dr as (D1 & D2 & D3 & D4 & D5).
    assert (Ww : wf_rel cfg (with_rows r (ncols r + (dim - nout r)) (extended_rows r (dim - nout r)))).
    { apply wf_with_rows; [apply wf_supp; assumption|lia|apply (extended_rows_width (cfg := cfg)); auto; lia|].
      unfold extended_rows. apply Forall_app. split.
      - apply Forall_map. eapply Forall_impl; [|apply rows_rep; exact Wr]. intros row Hrow.
        apply insert_at_Forall; [|assumption]. apply Forall_forall. intros v Hv. apply repeat_spec in Hv. subst v.
        apply representable_int; [assumption|apply wf_supp; assumption|]. unfold c_int; lia.
      - apply Forall_map. apply Forall_forall. intros i Hi. unfold zero_output_row.
        assert (Hrep : forall v, v = 0 \/ v = -1 -> representable cfg (rprec r) v).
        { intros v Hv. apply representable_int; [assumption|apply wf_supp; assumption|]. unfold c_int; lia. }
        apply Forall_app. split; [|apply Forall_app; split].
        + apply Forall_forall. intros v Hv. apply repeat_spec in Hv. auto.
        + constructor; [|constructor]. apply Hrep. auto.
        + apply Forall_forall. intros v Hv. apply repeat_spec in Hv. auto. }
    exact Ww.
  - assert (G : forall l, Forall (fun r => wf_rel cfg r /\ dims_known r /\ nout r <= dim) l ->
      Forall2 (fun r r' => nout r' = dim /\ nin r' = nin r /\ nloc r' = nloc r /\ npar r' = npar r /\
        rtype r' = rtype r /\ rprec r' = rprec r /\
        forall out z inp par, zlength out = nout r ->
          (relates r' (out ++ z) inp par <->
             relates r out inp par /\ zlength z = dim - nout r /\ Forall (fun v => v = 0) z)) l (map ext l)).
    2:{ apply G. apply Forall_forall. intros r Hr.
        split; [exact (proj1 (Forall_forall _ _) W r Hr)|]. split; [exact (proj1 (Forall_forall _ _) D r Hr)|].
        exact (proj1 (Forall_forall _ _) N r Hr). }
    intros l HF. induction HF as [|r l (Wr & Dr & Nr) HF IH]; cbn [map]; constructor; [|exact IH].
    repeat (split; [reflexivity|]). intros out z inp par Ho.
    destruct Dr as (D1 & D2 & D3 & D4 & D5).
    assert (Er : rows (ext r) = extended_rows r (dim - nout r)).
    { apply (rows_with_rows r (ncols r + (dim - nout r))); [lia|apply (extended_rows_width (cfg := cfg)); auto; lia]. }
    unfold relates, in_part. cbn [nout nin nloc npar ncols ext with_attrs with_rows].
    change (with_attrs (with_rows r (ncols r + (dim - nout r)) (extended_rows r (dim - nout r))) dim (nin r) (nloc r) (npar r)) with (ext r).
    rewrite Er. split.
    + intros (H1 & H2 & H3 & loc & H4 & H5 & H6). rewrite zlength_app in H1.
      assert (Hy : zlength (inp ++ loc ++ par) = nin r + nloc r + npar r) by (rewrite !zlength_app; lia).
      rewrite <- app_assoc in H6.
      apply (extended_sem (cfg := cfg) r (dim - nout r) out z (inp ++ loc ++ par)) in H6; auto; try lia.
      destruct H6 as [H6 H7]. split; [|split; [lia|assumption]].
      repeat (split; [assumption|]). exists loc. split; [assumption|]. split; [|assumption].
      rewrite !zlength_app in *. lia.
    + intros ((H1 & H2 & H3 & loc & H4 & H5 & H6) & Hz & Hz0). rewrite zlength_app.
      split; [lia|]. repeat (split; [assumption|]). exists loc. split; [assumption|].
      assert (Hy : zlength (inp ++ loc ++ par) = nin r + nloc r + npar r) by (rewrite !zlength_app; lia).
      split; [rewrite !zlength_app in *; lia|]. rewrite <- app_assoc.
      apply (extended_sem (cfg := cfg) r (dim - nout r) out z (inp ++ loc ++ par)); auto; lia.
Qed.
Print Assumptions C16_extend_output.

(** Shrinking is refused. *)
Theorem C16_extend_output_shrink_stops : forall (cfg : config) (first : relation) (rest : list relation) (dim : Z),
  dim < nout first -> osl_relation_extend_output (first :: rest) dim = Err.
Proof.
  intros cfg first rest dim H. unfold osl_relation_extend_output. cbn [mapM].
  rewrite extend_part_err by assumption. reflexivity.
Qed.
Print Assumptions C16_extend_output_shrink_stops.

(** A NULL relation (an empty union) crashes. *)
Theorem C16_extend_output_null_refuted : forall (cfg : config) (dim : Z), osl_relation_extend_output [] dim = UB.
Proof. reflexivity. Qed.
Print Assumptions C16_extend_output_null_refuted.

(** ** C17: integrity check *)
Theorem C17_integrity_sound : forall (cfg : config) (u : list relation) (type outs ins pars : Z),
  config_ok cfg -> ndebug cfg = false -> wf_union cfg u ->
  osl_relation_integrity_check u type outs ins pars = Ok true ->
  coherent u type outs ins pars.
Proof. intros cfg u t o i p Hc Nd W. apply integrity_sound; auto. Qed.
Print Assumptions C17_integrity_sound.

(** Conversely (identifiers within the range of [int], see C18). *)
Theorem C17_integrity_complete : forall (cfg : config) (u : list relation) (type outs ins pars : Z),
  config_ok cfg -> wf_union cfg u ->
  Forall (fun r => Forall (Forall (fun v => - 2 ^ 31 < v <= 2 ^ 31 - 1)) (rows r)) u ->
  coherent u type outs ins pars ->
  osl_relation_integrity_check u type outs ins pars = Ok true.
Proof. intros cfg u t o i p Hc W Hs. apply integrity_complete; auto. Qed.
Print Assumptions C17_integrity_complete.

(** The type is that of the first part only: a union whose second part has
    another type is accepted. *)
Theorem C17_type_of_every_part_refuted : exists (r1 r2 : relation),
  wf_union lp64_debug [r1; r2] /\ rtype r2 <> TYPE_DOMAIN /\
  @osl_relation_integrity_check lp64_debug [r1; r2] TYPE_DOMAIN (-1) (-1) (-1) = Ok true.
Proof.
  exists (mkrel TYPE_DOMAIN 64 1 4 1 0 0 1 [[1; 1; 0; 0]]), (mkrel TYPE_SCATTERING 64 1 4 1 0 0 1 [[0; 1; -1; 0]]).
  split; [|split; [discriminate|reflexivity]].
  constructor; [|constructor; [|constructor]]; unfold wf_rel; cbn [rtype rprec nrows ncols nout nin nloc npar rm]; wf_lit.
Qed.
Print Assumptions C17_type_of_every_part_refuted.

(** ** C18: array identifiers *)
Theorem C18_array_id_sound : forall (cfg : config) (u : list relation) (n : Z),
  config_ok cfg -> ndebug cfg = false -> wf_union cfg u ->
  osl_relation_get_array_id u = Ok n -> n <> -1 ->
  Forall (fun r => fixes_array r n) u /\
  (exists r u', u = r :: u' /\ access_type (rtype r)) /\
  (forall x, in_union u x -> nth 0 x 0 = n).
Proof.
  intros cfg u n Hc Nd W H Hn. destruct (get_array_id_sound u n W Nd H Hn) as [HF Hx].
  split; [exact HF|]. split; [exact Hx|]. intros x Hin. apply Exists_exists in Hin. destruct Hin as (r & Hr & Hp).
  eapply fixes_array_points; [| |exact Hp].
  - eapply Forall_forall in W; eassumption.
  - eapply Forall_forall in HF; eassumption.
Qed.
Print Assumptions C18_array_id_sound.

Theorem C18_array_id_complete : forall (cfg : config) (r : relation) (u : list relation) (n : Z),
  config_ok cfg -> wf_union cfg (r :: u) ->
  Forall (fun r => Forall (Forall (fun v => - 2 ^ 31 < v <= 2 ^ 31 - 1)) (rows r)) (r :: u) ->
  access_type (rtype r) -> Forall (fun r => fixes_array r n) (r :: u) ->
  osl_relation_get_array_id (r :: u) = Ok n.
Proof. intros cfg r u n Hc W Hs. apply get_array_id_complete; auto. Qed.
Print Assumptions C18_array_id_complete.

(** The release build reads the constant through an [int] without checking: an
    access to array 2^32+5 is reported as an access to array 5. *)
Theorem C18_array_id_release_refuted : exists (r : relation),
  wf_union lp64_release [r] /\ access_type (rtype r) /\ fixes_array r 4294967301 /\
  @osl_relation_get_array_id lp64_release [r] = Ok 5.
Proof.
  exists (mkrel TYPE_READ 64 1 3 1 0 0 0 [[0; -1; 4294967301]]).
  split; [|split; [|split]].
  - constructor; [|constructor]. unfold wf_rel; cbn [rtype rprec nrows ncols nout nin nloc npar rm]; wf_lit.
  - right; left; reflexivity.
  - split; [lia|]. exists [], [], (-1), 4294967301. repeat split; try lia. constructor.
  - reflexivity.
Qed.
Print Assumptions C18_array_id_release_refuted.

(** ** C19: attribute maxima *)
Theorem C19_relation_attributes : forall (cfg : config) (u : list relation) (a a' : attrs) (w : attribute),
  osl_relation_get_attributes u a = Ok a' ->
  attribute_in w a <= attribute_in w a' /\
  (forall pre part post, u = pre ++ part :: post ->
     exists id, (access_type (rtype part) -> osl_relation_get_array_id (part :: post) = Ok id) /\
       attribute_of w part id <= attribute_in w a') /\
  (attribute_in w a' = attribute_in w a \/
   exists pre part post id, u = pre ++ part :: post /\
     (access_type (rtype part) -> osl_relation_get_array_id (part :: post) = Ok id) /\
     attribute_in w a' = attribute_of w part id).
Proof.
  intros cfg u a a' w. revert a. induction u as [|r u IH]; intros a H.
  - cbn in H. injection H as <-. split; [lia|]. split; [|auto].
    intros [|? ?] ? ? E; discriminate.
  - cbn [osl_relation_get_attributes] in H.
    destruct (local_attrs (r :: u) r) as [l| | |] eqn:El; try discriminate. cbn [bind] in H.
    destruct (IH _ H) as (H1 & H2 & H3). clear IH H.
    assert (Hl : exists id, (access_type (rtype r) -> osl_relation_get_array_id (r :: u) = Ok id) /\
       attribute_of w r id = attribute_in w l).
    { unfold local_attrs in El. pose proof (is_access_spec r) as Ha.
      unfold osl_relation_is_access, access_type, attribute_of, TYPE_CONTEXT, TYPE_DOMAIN, TYPE_ACCESS, TYPE_READ, TYPE_WRITE, TYPE_MAY_WRITE in *.
      destruct ((rtype r =? 5) || (rtype r =? 6) || (rtype r =? 7) || (rtype r =? 8)) eqn:Eacc.
      - destruct (osl_relation_get_array_id (r :: u)) as [id| | |]; try discriminate. cbn [bind] in El. injection El as <-.
        exists id. split; [auto|]. destruct w; cbn [attribute_in a_par a_iter a_scat a_loc a_id]; bsplit; reflexivity.
      - exists 0. split; [lia|].
        destruct (rtype r =? 2) eqn:E2; [|destruct (rtype r =? 3) eqn:E3]; injection El as <-;
          destruct w; cbn [attribute_in a_par a_iter a_scat a_loc a_id]; bsplit; reflexivity. }
    destruct Hl as (id & Hid & Hval).
    assert (Hm : attribute_in w (attrs_max a l) = Z.max (attribute_in w a) (attribute_in w l)) by (destruct w; reflexivity).
    rewrite Hm in *. split; [lia|]. split.
    + intros [|p pre] part post E.
      * injection E as <- <-. exists id. split; [exact Hid|]. lia.
      * injection E as <- E. eauto.
    + destruct H3 as [H3|(pre & part & post & id' & E & Hid' & Hv)].
      * destruct (Z.max_spec (attribute_in w a) (attribute_in w l)) as [[_ M]|[_ M]]; rewrite M in H3.
        -- right. exists [], r, u, id. split; [reflexivity|]. split; [exact Hid|]. lia.
        -- left. exact H3.
      * right. exists (r :: pre), part, post, id'. split; [cbn; congruence|]. auto.
Qed.
Print Assumptions C19_relation_attributes.

(** ** C39: combining a constraint with a vector *)

(** add_vector: the sum of two constraints is implied by them. *)
Theorem C39_add_vector_sound : forall (cfg : config) (r : relation) (v : vector)
    (pre post : list (list Z)) (old : list Z),
  config_ok cfg -> wf_rel cfg r -> wf_vec cfg v -> vprec v = rprec r -> vsize v = ncols r -> 2 <= ncols r ->
  rows r = pre ++ old :: post -> (nth 0 old 0 = 0 \/ nth 0 old 0 = 1) ->
  (forall i, 1 <= i < ncols r ->
     representable cfg (rprec r) (component old i + component (vv v) i) /\
     (ndebug cfg = true \/ ~ (component old i < 0 /\ is_min cfg (rprec r) (component (vv v) i)))) ->
  exists new, osl_relation_add_vector r v (zlength pre) = Ok (with_rows r (ncols r) (pre ++ new :: post)) /\
    tl new = zip_with Z.add (tl old) (tl (vv v)) /\
    (nth 0 new 0 = 0 <-> nth 0 old 0 = 0 /\ nth 0 (vv v) 0 = 0) /\
    forall x, zlength x = ncols r - 2 -> satisfies x old -> satisfies x (vv v) -> satisfies x new.
Proof.
  intros cfg r v pre post old Hc W Wv Ep En H2 Er Ht Hno.
  pose proof (zlength_nonneg pre) as Hp0. pose proof (zlength_nonneg post) as Hq0.
  assert (Hrow : 0 <= zlength pre < nrows r).
  { rewrite <- (rows_length r W), Er, zlength_app, zlength_cons. lia. }
  assert (Hold : znth [] (rows r) (zlength pre) = old).
  { rewrite Er. unfold znth. rewrite app_nth2 by (unfold zlength; lia).
    replace (Z.to_nat (zlength pre) - length pre)%nat with 0%nat by (unfold zlength; lia). reflexivity. }
  assert (Hlo : zlength old = ncols r) by (rewrite <- Hold; apply row_len; assumption).
  pose proof Wv as (Hsv & Hlv & Hrv).
  assert (Hro : Forall (representable cfg (rprec r)) old).
  { pose proof (rows_rep r W) as K. rewrite Er in K. apply Forall_app in K as [_ K]. exact (Forall_inv K). }
  destruct old as [|t0 old']; [rewrite zlength_nil in Hlo; lia|].
  destruct (vv v) as [|tv v'] eqn:Ev; [rewrite zlength_nil in Hlv; lia|].
  cbn [nth] in Ht.
  exists ((if t0 =? 0 then tv else t0) :: zip_with Z.add old' v').
  split; [|split; [reflexivity|split]].
  - unfold osl_relation_add_vector.
    rewrite (combine_vector_ok osl_int_add Z.add r v (zlength pre)); auto; try lia.
    + rewrite Hold, Ev. cbn [tl]. change (znth 0 (t0 :: old') 0) with t0. change (znth 0 (tv :: v') 0) with tv.
      do 2 f_equal. unfold replace_at. rewrite Er. cbn [length].
      replace (Z.to_nat (zlength pre)) with (length pre) by (unfold zlength; lia).
      rewrite firstn_app, firstn_all, Nat.sub_diag, firstn_O, app_nil_r. f_equal. cbn [app]. f_equal.
      rewrite skipn_app, skipn_all2 by lia. replace (length pre + 1 - length pre)%nat with 1%nat by lia. reflexivity.
    + rewrite Hold. change (znth 0 (t0 :: old') 0) with t0. unfold c_int. lia.
    + intros b Hb. rewrite Hold, Ev. destruct (Hno b Hb) as [N1 N2]. apply add_exact; auto.
      * apply (Forall_at _ _ _ _ Hro). lia.
      * rewrite <- Ep. apply (Forall_at _ _ _ _ Hrv). lia.
  - cbn [nth]. destruct (Z.eqb_spec t0 0); lia.
  - intros x Hx S1 S2. cbn [satisfies] in *.
    rewrite zlength_cons in Hlo, Hlv.
    rewrite (affine_zip Z.add old' v' x 1); [| intros; lia | unfold zlength in *; lia | unfold zlength in *; lia].
    destruct (Z.eqb_spec t0 0), (Z.eqb_spec tv 0); try destruct (Z.eqb_spec tv 0); try destruct (Z.eqb_spec t0 0); lia.
Qed.
Print Assumptions C39_add_vector_sound.

(** sub_vector is sound when the vector is an equality ... *)
Theorem C39_sub_vector_equality_sound : forall (cfg : config) (r : relation) (v : vector)
    (pre post : list (list Z)) (old : list Z),
  config_ok cfg -> wf_rel cfg r -> wf_vec cfg v -> vprec v = rprec r -> vsize v = ncols r -> 2 <= ncols r ->
  rows r = pre ++ old :: post -> (nth 0 old 0 = 0 \/ nth 0 old 0 = 1) ->
  nth 0 (vv v) 0 = 0 ->
  (forall i, 1 <= i < ncols r ->
     representable cfg (rprec r) (component old i - component (vv v) i) /\
     ~ is_min cfg (rprec r) (component (vv v) i)) ->
  exists new, osl_relation_sub_vector r v (zlength pre) = Ok (with_rows r (ncols r) (pre ++ new :: post)) /\
    tl new = zip_with Z.sub (tl old) (tl (vv v)) /\
    forall x, zlength x = ncols r - 2 -> satisfies x old -> satisfies x (vv v) -> satisfies x new.
Proof.
  intros cfg r v pre post old Hc W Wv Ep En H2 Er Ht Htv Hno.
  pose proof (zlength_nonneg pre) as Hp0. pose proof (zlength_nonneg post) as Hq0.
  assert (Hrow : 0 <= zlength pre < nrows r).
  { rewrite <- (rows_length r W), Er, zlength_app, zlength_cons. lia. }
  assert (Hold : znth [] (rows r) (zlength pre) = old).
  { rewrite Er. unfold znth. rewrite app_nth2 by (unfold zlength; lia).
    replace (Z.to_nat (zlength pre) - length pre)%nat with 0%nat by (unfold zlength; lia). reflexivity. }
  assert (Hlo : zlength old = ncols r) by (rewrite <- Hold; apply row_len; assumption).
  pose proof Wv as (Hsv & Hlv & Hrv).
  assert (Hro : Forall (representable cfg (rprec r)) old).
  { pose proof (rows_rep r W) as K. rewrite Er in K. apply Forall_app in K as [_ K]. exact (Forall_inv K). }
  destruct old as [|t0 old']; [rewrite zlength_nil in Hlo; lia|].
  destruct (vv v) as [|tv v'] eqn:Ev; [rewrite zlength_nil in Hlv; lia|].
  cbn [nth] in Ht, Htv.
  exists ((if t0 =? 0 then tv else t0) :: zip_with Z.sub old' v').
  split; [|split; [reflexivity|]].
  - unfold osl_relation_sub_vector.
    rewrite (combine_vector_ok osl_int_sub Z.sub r v (zlength pre)); auto; try lia.
    + rewrite Hold, Ev. cbn [tl]. change (znth 0 (t0 :: old') 0) with t0. change (znth 0 (tv :: v') 0) with tv.
      do 2 f_equal. unfold replace_at. rewrite Er. cbn [length].
      replace (Z.to_nat (zlength pre)) with (length pre) by (unfold zlength; lia).
      rewrite firstn_app, firstn_all, Nat.sub_diag, firstn_O, app_nil_r. f_equal. cbn [app]. f_equal.
      rewrite skipn_app, skipn_all2 by lia. replace (length pre + 1 - length pre)%nat with 1%nat by lia. reflexivity.
    + rewrite Hold. change (znth 0 (t0 :: old') 0) with t0. unfold c_int. lia.
    + intros b Hb. rewrite Hold, Ev. destruct (Hno b Hb) as (N1 & N2). apply sub_exact; auto.
      * apply (Forall_at _ _ _ _ Hro). lia.
      * rewrite <- Ep. apply (Forall_at _ _ _ _ Hrv). lia.
  - intros x Hx S1 S2. cbn [satisfies] in *.
    rewrite zlength_cons in Hlo, Hlv.
    rewrite (affine_zip Z.sub old' v' x (-1)); [| intros; lia | unfold zlength in *; lia | unfold zlength in *; lia].
    destruct (Z.eqb_spec t0 0), (Z.eqb_spec tv 0); try destruct (Z.eqb_spec tv 0); try destruct (Z.eqb_spec t0 0); lia.
Qed.
Print Assumptions C39_sub_vector_equality_sound.

(** ... and unsound when it is an inequality: from x >= 0 and x >= 1 it makes
    -1 >= 0, which no point satisfies. *)
Theorem C39_sub_vector_inequality_refuted : exists (r r' : relation) (v : vector) (x : list Z),
  wf_rel lp64_debug r /\ wf_vec lp64_debug v /\
  @osl_relation_sub_vector lp64_debug r v 0 = Ok r' /\
  in_part r x /\ satisfies x (vv v) /\ ~ in_part r' x.
Proof.
  exists (mkrel TYPE_DOMAIN 64 1 3 1 0 0 0 [[1; 1; -1]]), (mkrel TYPE_DOMAIN 64 1 3 1 0 0 0 [[1; 0; -1]]),
    (mkvec 64 3 [1; 1; 0]), [4].
  split; [unfold wf_rel; cbn [rtype rprec nrows ncols nout nin nloc npar rm]; wf_lit|].
  split; [unfold wf_vec; cbn [vprec vsize vv]; wf_lit|].
  split; [reflexivity|]. split; [split; [reflexivity|]; repeat constructor; cbn; lia|].
  split; [cbn; lia|]. intros [_ H]. apply Forall_inv in H. cbn in H. lia.
Qed.
Print Assumptions C39_sub_vector_inequality_refuted.

(** ** Concrete cases meeting the hypotheses (C07, C09-C19, C39) *)
(* { (i,j) -> : 0 <= i <= N, j = i } and a second part { i >= 3 } *)
Definition ex_r1 := mkrel TYPE_DOMAIN 64 3 5 2 0 0 1 [[1; 1; 0; 0; 0]; [1; -1; 0; 1; 0]; [0; 1; -1; 0; 0]].
Definition ex_r2 := mkrel TYPE_DOMAIN 64 1 5 2 0 0 1 [[1; 1; 0; 0; -3]].
Definition ex_v := mkvec 64 5 [1; 0; 1; 0; -1].
Definition ex_acc := mkrel TYPE_WRITE 64 2 7 2 2 0 1 [[0; -1; 0; 0; 0; 0; 4]; [0; 0; -1; 1; 0; 0; 2]].
Ltac wf_rel_lit := unfold wf_rel; cbn [rtype rprec nrows ncols nout nin nloc npar rm ex_r1 ex_r2 ex_acc]; wf_lit.
Example ex_r1_wf : wf_rel lp64_debug ex_r1. Proof. wf_rel_lit. Qed.
Example ex_r2_wf : wf_rel lp64_debug ex_r2. Proof. wf_rel_lit. Qed.
Example ex_acc_wf : wf_rel lp64_debug ex_acc. Proof. wf_rel_lit. Qed.
Example ex_v_wf : wf_vec lp64_debug ex_v. Proof. unfold wf_vec; cbn [vprec vsize vv ex_v]; wf_lit. Qed.
Example ex_union_wf : wf_union lp64_debug [ex_r1; ex_r2].
Proof. constructor; [exact ex_r1_wf|]. constructor; [exact ex_r2_wf|constructor]. Qed.
Example ex_point : in_part ex_r1 [2; 2; 7] /\ relates ex_r1 [2; 2] [] [7] /\ ~ in_part ex_r2 [2; 2; 7].
Proof.
  split; [|split].
  - split; [reflexivity|]. repeat constructor; cbn; lia.
  - repeat (split; [reflexivity|]). exists []. split; [reflexivity|]. split; [reflexivity|]. repeat constructor; cbn; lia.
  - intros [_ H]. apply Forall_inv in H. cbn in H. lia.
Qed.
Example ex_equal : @osl_relation_equal lp64_debug [ex_r1; ex_r2] [ex_r1; ex_r2] = Ok true /\
  @osl_relation_equal lp64_debug [ex_r1; ex_r2] [ex_r2; ex_r1] = Ok false /\
  @osl_relation_equal lp64_debug [ex_r1] [ex_r1; ex_r2] = Ok false.
Proof. repeat split. Qed.
Example ex_clone : @osl_relation_nclone lp64_debug [ex_r1; ex_r2] 1 = Ok [ex_r1] /\
  @osl_relation_clone_nconstraints lp64_debug [ex_r1; ex_r2] 1 =
    Ok [mkrel TYPE_DOMAIN 64 1 5 2 0 0 1 [[1; 1; 0; 0; 0]]; ex_r2].
Proof. split; reflexivity. Qed.
Example ex_insert : @osl_relation_insert_constraints lp64_debug ex_r1 ex_r2 1 =
  Ok (mkrel TYPE_DOMAIN 64 4 5 2 0 0 1 [[1; 1; 0; 0; 0]; [1; 1; 0; 0; -3]; [1; -1; 0; 1; 0]; [0; 1; -1; 0; 0]]).
Proof. reflexivity. Qed.
Example ex_column : @osl_relation_insert_blank_column lp64_debug ex_r2 2 =
  Ok (mkrel TYPE_DOMAIN 64 1 6 2 0 0 1 [[1; 1; 0; 0; 0; -3]]).
Proof. reflexivity. Qed.
Example ex_dims_known : Forall dims_known [ex_r1; ex_r2] /\ Forall (fun r => nout r <= 3) [ex_r1; ex_r2].
Proof. split; repeat constructor; cbn; lia. Qed.
Example ex_extend : @osl_relation_extend_output lp64_debug [ex_r2] 3 =
  Ok [mkrel TYPE_DOMAIN 64 2 6 3 0 0 1 [[1; 1; 0; 0; 0; -3]; [0; 0; 0; -1; 0; 0]]].
Proof. reflexivity. Qed.
Example ex_integrity : @osl_relation_integrity_check lp64_debug [ex_acc] TYPE_ACCESS (-1) 2 1 = Ok true /\
  @osl_relation_integrity_check lp64_debug [ex_r1; ex_r2] TYPE_DOMAIN 2 0 (-1) = Ok true /\
  @osl_relation_integrity_check lp64_debug [ex_r1; ex_r2] TYPE_DOMAIN 3 0 (-1) = Ok false.
Proof. repeat split. Qed.
Example ex_coherent : coherent [ex_acc] TYPE_ACCESS (-1) 2 1.
Proof.
  apply (C17_integrity_sound lp64_debug); [right; reflexivity|reflexivity| |reflexivity].
  constructor; [exact ex_acc_wf|constructor].
Qed.
Example ex_id : @osl_relation_get_array_id lp64_debug [ex_acc] = Ok 4 /\ fixes_array ex_acc 4.
Proof.
  split; [reflexivity|]. split; [lia|]. exists [], [[0; 0; -1; 1; 0; 0; 2]], (-1), 4.
  repeat split; try lia. repeat constructor.
Qed.
Example ex_attributes : @osl_relation_get_attributes lp64_debug [ex_r1; ex_r2] (mkattrs 0 0 0 0 0) = Ok (mkattrs 1 2 0 0 0)
  /\ @osl_relation_get_attributes lp64_debug [ex_acc] (mkattrs 0 5 0 0 0) = Ok (mkattrs 1 5 0 0 4).
Proof. split; reflexivity. Qed.
Example ex_add_vector : @osl_relation_add_vector lp64_debug ex_r1 ex_v 2 =
  Ok (mkrel TYPE_DOMAIN 64 3 5 2 0 0 1 [[1; 1; 0; 0; 0]; [1; -1; 0; 1; 0]; [1; 1; 0; 0; -1]]).
Proof. reflexivity. Qed.
Example ex_set_same_precision :
  @osl_relation_set_same_precision lp64_debug [ex_r1] [mkrel TYPE_DOMAIN 32 1 3 1 0 0 0 [[1; 1; -3]]] =
  Ok ([ex_r1], [mkrel TYPE_DOMAIN 64 1 3 1 0 0 0 [[1; 1; -3]]]).
Proof. reflexivity. Qed.
