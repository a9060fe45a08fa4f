(** * Properties C45 (SCoPLib compatibility check) and C46 (registration of extensions) *)
From Verif Require Import Base LoopLemmas IntModel VectorModel IntProofs RelationModel UtilModel StringsModel RelTextModel Spec RelSpec
  RelationProofs PropStrings PropExt2 ExtModel RelTextProofs ScopModel ScopSpec PropScop CloneModel CloneSpec PropClone.

Lemma cfor_check (P : Z -> Prop) lo hi (body : Z -> unit -> res unit) :
  (forall i, lo <= i < hi -> (body i tt = Ok tt /\ P i) \/ (body i tt = Err /\ ~ P i)) ->
  (cfor lo hi body tt = Ok tt /\ forall i, lo <= i < hi -> P i) \/
  (cfor lo hi body tt = Err /\ ~ forall i, lo <= i < hi -> P i).
Proof.
  remember (Z.to_nat (hi - lo)) as n eqn:En. revert lo En. induction n as [|n IH]; intros lo En H.
  - left. rewrite cfor_empty by lia. split; [reflexivity|]. intros; lia.
  - rewrite cfor_step by lia. destruct (H lo ltac:(lia)) as [[E Hl]|[E Hl]]; rewrite E; cbn [bind].
    + destruct (IH (lo + 1) ltac:(lia)) as [[E' H']|[E' H']]; [intros i Hi; apply H; lia|left|right]; (split; [exact E'|]).
      * intros i Hi. destruct (Z.eq_dec i lo) as [->|]; [exact Hl|]. apply H'. lia.
      * intros X. apply H'. intros i Hi. apply X. lia.
    + right. split; [reflexivity|]. intros X. apply Hl, X. lia.
Qed.

Section SCOPLIB.
Context {cfg : config}.

Lemma minus_identity_ok p r : wf_rel cfg r -> rprec r = p -> nout r < ncols r ->
  (minus_identity p r = Ok tt /\ minus_identity_outputs r) \/ (minus_identity p r = Err /\ ~ minus_identity_outputs r).
Proof.
  intros W <- Hn. unfold minus_identity, minus_identity_outputs. pose proof (wf_mat _ W) as M. pose proof (wf_supp _ W) as S.
  destruct (cfor_check (fun i => forall j, 0 <= j < nout r -> component (nth (Z.to_nat i) (rm r) []) (j + 1) = if i =? j then -1 else 0) 0 (nrows r)
    (fun i _ => cfor 0 (nout r) (fun j _ => x <- mget (rm r) i (j + 1) ;;
        b <- (if i =? j then osl_int_mone (rprec r) x else osl_int_zero (rprec r) x) ;; if b then Ok tt else Err) tt)) as [[E H]|[E H]].
  - intros i Hi. apply cfor_check. intros j Hj. rewrite (mget_ok _ _ _ _ _ M) by lia. cbn [bind].
    change (cell (rm r) i (j + 1)) with (component (nth (Z.to_nat i) (rm r) []) (j + 1)).
    destruct (sign_exact (rprec r) (component (nth (Z.to_nat i) (rm r) []) (j + 1)) S) as (_ & _ & Ez & _ & Em).
    destruct (i =? j); rewrite ?Ez, ?Em; cbn [bind].
    + destruct (Z.eqb_spec (component (nth (Z.to_nat i) (rm r) []) (j + 1)) (-1)); auto.
    + destruct (Z.eqb_spec (component (nth (Z.to_nat i) (rm r) []) (j + 1)) 0); auto.
  - left. split; [exact E|]. intros i j Hi. apply H. exact Hi.
  - right. split; [exact E|]. intros X. apply H. intros i Hi j Hj. now apply X.
Qed.
Lemma existsb_locals d : existsb (fun d => negb (nloc d =? 0)) d = false <-> Forall (fun r => nloc r = 0) d.
Proof.
  induction d as [|r d IH]; cbn; [easy|]. rewrite orb_false_iff, IH, Forall_cons_iff. destruct (Z.eqb_spec (nloc r) 0); cbn; intuition congruence.
Qed.
Lemma statement_ok p s : Forall (wf_rel cfg) (st_scattering s) -> scattered p s -> Forall (fun r => nout r < ncols r) (st_scattering s) ->
  (scoplib_statement p s = Ok tt /\ scoplib_style s) \/ (scoplib_statement p s = Err /\ ~ scoplib_style s).
Proof.
  intros W (r & rest & E & Hp) Hn. unfold scoplib_statement, scoplib_style. rewrite E in *. inversion W; subst. inversion Hn; subst.
  destruct (Z.eqb_spec (nloc r) 0) as [El|El]; cbn [negb].
  2:{ right. split; [reflexivity|]. intros (_ & r' & rest' & X & Hl & _). injection X as -> ->. contradiction. }
  destruct (existsb _ (st_domain s)) eqn:Ed.
  { right. split; [reflexivity|]. intros (X & _). apply existsb_locals in X. congruence. }
  apply existsb_locals in Ed. destruct (minus_identity_ok (rprec r) r) as [[Em Hm]|[Em Hm]]; try assumption; [reflexivity| |].
  - left. split; [exact Em|]. split; [exact Ed|]. exists r, rest. auto.
  - right. split; [exact Em|]. intros (_ & r' & rest' & X & _ & Hm'). injection X as -> ->. contradiction.
Qed.
Lemma statements_ok p l : Forall (fun s => Forall (wf_rel cfg) (st_scattering s) /\ scattered p s /\ Forall (fun r => nout r < ncols r) (st_scattering s)) l ->
  (exists v, mapM (scoplib_statement p) l = Ok v /\ Forall scoplib_style l) \/ (mapM (scoplib_statement p) l = Err /\ ~ Forall scoplib_style l).
Proof.
  induction 1 as [|s l (W & S & N) H IH]; [left; exists []; split; [reflexivity|constructor]|]. cbn [mapM].
  destruct (statement_ok p s W S N) as [[E Hs]|[E Hs]]; rewrite E; cbn [bind].
  - destruct IH as [(v & E' & Hl)|[E' Hl]]; rewrite E'; cbn [bind]; [left|right].
    + eexists. split; [reflexivity|]. now constructor.
    + split; [reflexivity|]. intros X. inversion X. contradiction.
  - right. split; [reflexivity|]. intros X. inversion X. contradiction.
Qed.
Lemma coherent_columns u ty eo ei ep : Forall (wf_rel cfg) u -> coherent u ty eo ei ep ->
  Forall (fun r => 0 <= nin r /\ 0 <= npar r /\ -1 <= nloc r) u -> Forall (fun r => nout r < ncols r) u.
Proof.
  intros W H F. destruct u as [|r u]; [constructor|]. destruct (H r u eq_refl) as (_ & _ & _ & _ & _ & _ & _ & _ & _ & _ & X & _).
  rewrite Forall_forall in *. intros x Hx. destruct (X x Hx) as (_ & _ & _ & E & _). destruct (F x Hx) as (F1 & F2 & F3). unfold locals in E. unfold UNDEFINED in E.
  destruct (Z.eqb_spec (nloc x) (-1)); lia.
Qed.
End SCOPLIB.

(** A scop whose counts of dimensions are not negative (-1 stands for an unknown number of local dimensions) and whose
    statements all have a scattering, of one precision. *)
Definition has_scatterings (s : scop) : Prop :=
  exists p, Forall (scattered p) (sc_stmts s) /\
    Forall (fun st => Forall (fun r => 0 <= nin r /\ 0 <= npar r /\ -1 <= nloc r) (st_scattering st)) (sc_stmts s).

Section CHECK.
Variable cfg : config.
Lemma wf_scatterings s : Forall (wf_union cfg) (relations_of_scop s) -> Forall (fun st => Forall (wf_rel cfg) (st_scattering st)) (sc_stmts s).
Proof.
  intros W. apply Forall_forall. intros st Hst. rewrite Forall_forall in W. apply (W (st_scattering st)). unfold relations_of_scop, relations_of_statements.
  right. apply in_flat_map. exists st. split; [assumption|]. unfold relations_of_statement. cbn. tauto.
Qed.
Lemma check_one s : Forall (wf_union cfg) (relations_of_scop s) -> has_scatterings s -> coherent_scop s ->
  osl_scop_integrity_check [s] = Ok true ->
  (osl_scop_check_compatible_scoplib [s] = Ok true /\ Forall scoplib_style (sc_stmts s)) \/
  (osl_scop_check_compatible_scoplib [s] = Err /\ ~ Forall scoplib_style (sc_stmts s)).
Proof.
  intros W (p & Hs & Hd) [_ Co] E. unfold osl_scop_check_compatible_scoplib. rewrite E. cbn [bind negb].
  destruct (sc_stmts s) as [|st l] eqn:El; [left; split; [reflexivity|constructor]|].
  inversion Hs as [|? ? (r & rest & Er & Hp) Hs']; subst. rewrite Er.
  destruct (statements_ok (rprec r) (st :: l)) as [(v & Ev & Hv)|[Ev Hv]].
  - apply wf_scatterings in W. rewrite El in W. rewrite Forall_forall in *. intros x Hx. split; [now apply W|]. split; [now apply Hs|].
    destruct (Co x Hx) as (_ & C2 & _). eapply coherent_columns; [apply W; exact Hx|exact C2|now apply Hd].
  - left. rewrite Ev. split; [reflexivity|exact Hv].
  - right. rewrite Ev. split; [reflexivity|exact Hv].
Qed.
End CHECK.

(** ** C45 *)
(** If the check says yes, there is one scop, coherent (C36), in the style of SCoPLib. *)
Theorem C45_sound : forall (cfg : config) (l : list scop),
  config_ok cfg -> ndebug cfg = false -> Forall (wf_union cfg) (relations_of_scops l) -> Forall c_sizes l -> Forall has_scatterings l ->
  osl_scop_check_compatible_scoplib l = Ok true ->
  exists s, l = [s] /\ coherent_scop s /\ Forall scoplib_style (sc_stmts s).
Proof.
  intros cfg l Hc Nd W S Hs H. assert (I : osl_scop_integrity_check l = Ok true).
  { unfold osl_scop_check_compatible_scoplib in H. inv_bind H. destruct v; [exact E|]. discriminate. }
  pose proof (C36_integrity_sound cfg l Hc Nd W S I) as Co.
  destruct l as [|s [|s' l]].
  - unfold osl_scop_check_compatible_scoplib in H. rewrite I in H. discriminate.
  - exists s. split; [reflexivity|]. inversion Co; subst. split; [assumption|]. inversion Hs; subst.
    destruct (check_one cfg s) as [[_ X]|[X _]]; try assumption; [|congruence].
    unfold relations_of_scops in W. cbn [flat_map] in W. now rewrite app_nil_r in W.
  - unfold osl_scop_check_compatible_scoplib in H. rewrite I in H. discriminate.
Qed.
Print Assumptions C45_sound.

(** One coherent scop in the style of SCoPLib is accepted; on any other coherent scop the program stops with an error
    message, and a list of several coherent scops is rejected. *)
Theorem C45_complete : forall (cfg : config) (s : scop),
  config_ok cfg -> Forall (wf_union cfg) (relations_of_scop s) ->
  Forall (fun u => Forall (fun r => Forall (Forall (fun v => - 2 ^ 31 < v <= 2 ^ 31 - 1)) (rows r)) u) (relations_of_scop s) ->
  c_sizes s -> bodies_are_bodies s -> has_scatterings s -> coherent_scop s ->
  (Forall scoplib_style (sc_stmts s) -> osl_scop_check_compatible_scoplib [s] = Ok true) /\
  (~ Forall scoplib_style (sc_stmts s) -> osl_scop_check_compatible_scoplib [s] = Err).
Proof.
  intros cfg s Hc W F Sz B Hs Co.
  assert (I : osl_scop_integrity_check [s] = Ok true).
  { apply C36_integrity_complete; try assumption; try (constructor; [assumption|constructor]); unfold relations_of_scops; cbn [flat_map]; now rewrite app_nil_r. }
  destruct (check_one cfg s W Hs Co I) as [[E X]|[E X]]; rewrite E; split; easy.
Qed.
Print Assumptions C45_complete.
Theorem C45_several : forall (cfg : config) (l : list scop), (2 <= List.length l)%nat -> osl_scop_integrity_check l = Ok true ->
  osl_scop_check_compatible_scoplib l = Ok false.
Proof.
  intros cfg l Hl I. unfold osl_scop_check_compatible_scoplib. rewrite I. cbn [bind negb]. destruct l as [|s [|s' l]]; cbn in Hl; try lia. reflexivity.
Qed.
Print Assumptions C45_several.

(** What the style means: with a -Identity output part, an equality row gives the time dimension of its rank as an
    affine function of the other columns. *)
Theorem C45_meaning : forall (cfg : config) (r : relation) (out inp par : list Z) (i : Z) (coeffs others : list Z),
  wf_rel cfg r -> minus_identity_outputs r -> nloc r = 0 -> relates r out inp par -> 0 <= i < nrows r -> i < nout r ->
  nth (Z.to_nat i) (rows r) [] = 0 :: coeffs ++ others -> zlength coeffs = nout r ->
  component out i = affine others (inp ++ par).
Proof.
  intros cfg r out inp par i coeffs others W M El (Ho & Hi & Hp & loc & Hl & Hin) Hir Hio Hrow Hco.
  assert (loc = []) as -> by (destruct loc; [reflexivity|rewrite zlength_cons in Hl; pose proof (zlength_nonneg loc); lia]).
  destruct Hin as [_ Hsat]. rewrite Forall_forall in Hsat.
  assert (Hin : In (nth (Z.to_nat i) (rows r) []) (rows r)) by (apply nth_In; pose proof (rows_length _ W) as X; unfold zlength in X; lia).
  specialize (Hsat _ Hin). rewrite Hrow in Hsat. cbn [satisfies] in Hsat. change (0 =? 0) with true in Hsat. cbv iota in Hsat.
  assert (Ecoef : coeffs = map (fun j => if i =? Z.of_nat j then -1 else 0) (seq 0 (Z.to_nat (nout r)))).
  { assert (Hcol : rows r = rm r).
    { unfold rows. destruct (Z.eqb_spec (ncols r) 0) as [E|E]; [|reflexivity]. pose proof (rows_width _ W) as X. rewrite Forall_forall in X. specialize (X _ Hin).
      rewrite Hrow, E, zlength_cons in X. pose proof (zlength_nonneg (coeffs ++ others)). lia. }
    apply nth_ext with (d := 0) (d' := 0); [rewrite map_length, seq_length; unfold zlength in Hco; lia|].
    intros j Hj. specialize (M i (Z.of_nat j) Hir ltac:(unfold zlength in Hco; lia)). rewrite <- Hcol, Hrow in M. unfold component in M.
    replace (Z.to_nat (Z.of_nat j + 1)) with (S j) in M by lia. cbn [nth] in M. rewrite app_nth1 in M by assumption.
    rewrite M. rewrite (nth_indep _ 0 (if i =? Z.of_nat 0 then -1 else 0)) by (rewrite map_length, seq_length; unfold zlength in Hco; lia).
    rewrite (map_nth (fun j => if i =? Z.of_nat j then -1 else 0)). rewrite seq_nth by (unfold zlength in Hco; lia). reflexivity. }
  rewrite Ecoef in Hsat. clear Ecoef Hrow Hin Hco coeffs. cbn [app] in Hsat.
  assert (G : forall (o : list Z) k, (0 <= k) -> affine (map (fun j => if i =? Z.of_nat j then -1 else 0) (seq (Z.to_nat k) (List.length o)) ++ others) (o ++ inp ++ par)
     = affine others (inp ++ par) - (if (k <=? i) && (i <? k + zlength o) then component o (i - k) else 0)).
  { clear. induction o as [|x o IH]; intros k Hk.
    - cbn. unfold zlength. cbn. destruct ((k <=? i) && (i <? k + 0)) eqn:E; lia.
    - cbn [List.length seq map app]. rewrite zlength_cons. rewrite Z2Nat.id by lia.
      assert (Eaff : forall a l t, affine (a :: l) (x :: t) = a * x + affine l t) by (intros a [|? ?] t; reflexivity).
      rewrite Eaff. replace (S (Z.to_nat k)) with (Z.to_nat (k + 1)) by lia. rewrite IH by lia.
      pose proof (zlength_nonneg o). unfold component.
      destruct (Z.eqb_spec i k) as [->|Ne].
      + replace (k <=? k) with true by lia. replace (k <? k + (1 + zlength o)) with true by lia. replace (k + 1 <=? k) with false by lia.
        rewrite Z.sub_diag. cbn [andb]. change (Z.to_nat 0) with O. cbn [nth]. lia.
      + destruct (k + 1 <=? i) eqn:E1; cbn [andb].
        * replace (k <=? i) with true by lia. replace (i <? k + 1 + zlength o) with (i <? k + (1 + zlength o)) by (f_equal; lia). cbn [andb].
          destruct (i <? k + (1 + zlength o)); [|lia]. replace (Z.to_nat (i - k)) with (S (Z.to_nat (i - (k + 1)))) by lia. cbn [nth]. lia.
        * replace (k <=? i) with false by lia. cbn [andb]. lia. }
  specialize (G out 0 ltac:(lia)). unfold zlength in Ho. replace (Z.to_nat (nout r)) with (List.length out) in Hsat by lia.
  change (Z.to_nat 0) with O in G. rewrite G in Hsat.
  replace ((0 <=? i) && (i <? 0 + zlength out)) with true in Hsat by (unfold zlength; lia). rewrite Z.sub_0_r in Hsat. lia.
Qed.
Print Assumptions C45_meaning.

(** *** Where it fails *)
(** NULL, which the code means to accept, is dereferenced; so is the missing scattering of a statement, although the
    integrity check accepts such a statement. *)
Theorem C45_null_refuted :
  @osl_scop_check_compatible_scoplib lp64_debug [] = UB /\
  exists s, @osl_scop_integrity_check lp64_debug [s] = Ok true /\ @osl_scop_check_compatible_scoplib lp64_debug [s] = UB.
Proof.
  split; [reflexivity|]. exists (Scop 1 None [ex_context] [] [Statement [ex_domain] [] [] []] [] []). split; vm_compute; reflexivity.
Qed.
Print Assumptions C45_null_refuted.
(** Accepted although a time dimension is not a function of the iterators: only the first part of a scattering is
    looked at, a row may be an inequality, and there may be fewer rows than time dimensions. *)
Definition ex_inequality := mkrel TYPE_SCATTERING 64 1 5 1 1 0 1 [[1; -1; 1; 0; 0]].
Definition ex_norow := mkrel TYPE_SCATTERING 64 0 5 1 1 0 1 [].
Definition ex_positive := mkrel TYPE_SCATTERING 64 1 5 1 1 0 1 [[0; 1; 1; 0; 0]].
Definition with_scattering (u : list relation) : scop := Scop 1 None [ex_context] [] [Statement [ex_domain] u [] []] [] [].
Theorem C45_function_refuted :
  @osl_scop_check_compatible_scoplib lp64_debug [with_scattering [ex_scattering; ex_positive]] = Ok true /\
  ~ minus_identity_outputs ex_positive /\
  @osl_scop_check_compatible_scoplib lp64_debug [with_scattering [ex_inequality]] = Ok true /\
  relates ex_inequality [0] [0] [0] /\ relates ex_inequality [0] [1] [0] /\ relates ex_inequality [1] [1] [0] /\
  @osl_scop_check_compatible_scoplib lp64_debug [with_scattering [ex_norow]] = Ok true.
Proof.
  split; [vm_compute; reflexivity|]. split; [intros H; specialize (H 0 0 ltac:(cbn; lia) ltac:(cbn; lia)); discriminate H|]. split; [vm_compute; reflexivity|].
  split; [|split; [|split; [|vm_compute; reflexivity]]].
  all: (do 3 (split; [reflexivity|])); exists []; (split; [reflexivity|]); (split; [reflexivity|]); constructor; [cbn; lia|constructor].
Qed.
Print Assumptions C45_function_refuted.

Example C45_witness : @osl_scop_check_compatible_scoplib lp64_debug [ex_scop] = Ok true /\
  @osl_scop_check_compatible_scoplib lp64_debug [ex_scop; ex_scop] = Ok false /\
  @osl_scop_check_compatible_scoplib lp64_debug [with_scattering [ex_positive]] = Err /\
  has_scatterings ex_scop /\ Forall scoplib_style (sc_stmts ex_scop).
Proof.
  assert (Hs : has_scatterings ex_scop).
  { exists 64. split.
    - constructor; [exists ex_scattering, []; auto|]. constructor; [exists ex_scattering3, []; auto|constructor].
    - constructor; [|constructor; [|constructor]]; (constructor; [cbn; lia|constructor]). }
  assert (E : @osl_scop_check_compatible_scoplib lp64_debug [ex_scop] = Ok true) by (vm_compute; reflexivity).
  split; [exact E|]. split; [vm_compute; reflexivity|]. split; [vm_compute; reflexivity|]. split; [exact Hs|].
  destruct C36_witness_hypotheses as (W & S & B).
  destruct (C45_sound lp64_debug [ex_scop]) as (s & X & _ & H); try assumption; [now right| |constructor; [assumption|constructor]|constructor; [assumption|constructor]|].
  - reflexivity.
  - injection X as <-. exact H.
Qed.

(** ** C46: registration *)
Lemma interface_lookup_app l l' u : osl_interface_lookup (l ++ l') u =
  match osl_interface_lookup l u with Some i => Some i | None => osl_interface_lookup l' u end.
Proof.
  induction l as [|[o k] l IH]; [reflexivity|]. cbn [app osl_interface_lookup if_uri]. destruct o as [v|]; [|exact IH].
  destruct (str_eqb v u); [reflexivity|exact IH].
Qed.
Lemma lookup_iff l u : osl_interface_lookup l u = None <-> ~ In (Some u) (map if_uri l).
Proof.
  split; [|apply interface_lookup_absent]. induction l as [|[o k] l IH]; [easy|]. cbn [osl_interface_lookup if_uri map In].
  destruct o as [v|].
  - destruct (str_eqb v u) eqn:E; [discriminate|]. intros H [X|X]; [|now apply IH]. injection X as ->. rewrite str_eqb_refl in E. discriminate.
  - intros H [X|X]; [discriminate|now apply IH].
Qed.
Lemma interface_add_ok l new : (Forall (fun i => exists u, if_uri i = Some u /\ ~ In (Some u) (map if_uri l)) new -> osl_interface_add l new = Ok (l ++ new)) /\
  (~ Forall (fun i => exists u, if_uri i = Some u /\ ~ In (Some u) (map if_uri l)) new -> osl_interface_add l new = Err).
Proof.
  unfold osl_interface_add.
  assert (H : (Forall (fun i => exists u, if_uri i = Some u /\ ~ In (Some u) (map if_uri l)) new /\ interfaces_fit l new = Ok tt) \/
              (~ Forall (fun i => exists u, if_uri i = Some u /\ ~ In (Some u) (map if_uri l)) new /\ interfaces_fit l new = Err)).
  { induction new as [|[o k] new IH]; [left; split; [constructor|reflexivity]|]. cbn [interfaces_fit if_uri]. rewrite Forall_cons_iff. cbn [if_uri].
    destruct o as [u|]; [|right; split; [|reflexivity]; intros [(u & X & _) _]; discriminate].
    destruct (osl_interface_lookup l u) eqn:E.
    - right. split; [|reflexivity]. intros [(v & X & Hv) _]. injection X as <-. apply lookup_iff in Hv. congruence.
    - apply lookup_iff in E. destruct IH as [[H1 H2]|[H1 H2]]; [left|right]; (split; [|exact H2]); [split; [eauto|exact H1]|tauto]. }
  destruct H as [[H E]|[H E]]; rewrite E; split; intros X; try contradiction; reflexivity.
Qed.

(** Adding interfaces to a registry: every new interface must have a URI absent from the registry, otherwise the program
    stops; then each URI of the registry still gives its interface, and each new URI gives a new interface. *)
Theorem C46_add : forall (registry new : list interf),
  (Forall (fun i => exists u, if_uri i = Some u /\ ~ In (Some u) (map if_uri registry)) new ->
     exists r, osl_interface_add registry new = Ok r /\ osl_interface_number r = osl_interface_number registry + osl_interface_number new /\
       (forall u i, osl_interface_lookup registry u = Some i -> osl_interface_lookup r u = Some i) /\
       (forall u i, In i new -> if_uri i = Some u -> NoDup (map if_uri new) -> osl_interface_lookup r u = Some i)) /\
  (~ Forall (fun i => exists u, if_uri i = Some u /\ ~ In (Some u) (map if_uri registry)) new -> osl_interface_add registry new = Err).
Proof.
  intros l new. split; [|apply interface_add_ok]. intros H. exists (l ++ new). split; [now apply interface_add_ok|].
  split; [unfold osl_interface_number, zlength; rewrite app_length; lia|]. split.
  - intros u i E. now rewrite interface_lookup_app, E.
  - intros u i Hi Hu Hn. rewrite interface_lookup_app. rewrite Forall_forall in H. destruct (H i Hi) as (v & Ev & Hv). assert (v = u) as -> by congruence.
    apply lookup_iff in Hv. rewrite Hv. clear - Hi Hu Hn. induction new as [|[o k] new IH]; [destruct Hi|]. cbn [osl_interface_lookup if_uri]. cbn [map] in Hn. inversion Hn as [|? ? Hx Hn']; subst.
    destruct Hi as [<-|Hi].
    + cbn in Hu. subst o. now rewrite str_eqb_refl.
    + destruct o as [w|]; [|now apply IH]. destruct (str_eqb w u) eqn:E; [|now apply IH]. apply str_eqb_eq in E. subst w.
      exfalso. apply Hx. cbn [if_uri]. rewrite <- Hu. now apply in_map.
Qed.
Print Assumptions C46_add.

(** Registering interfaces in a scop that has no extension of the first one: the registry grows, nothing else changes. *)
Theorem C46_register : forall (s : scop) (i : interf) (tl : list interf) (u : str),
  if_uri i = Some u -> Forall (fun x => exists u, if_uri x = Some u /\ ~ In (Some u) (map if_uri (sc_registry s))) (i :: tl) ->
  ~ In (Some u) (map g_uri (sc_ext s)) ->
  osl_scop_register_extension s (i :: tl) =
    Ok (Scop (sc_version s) (sc_language s) (sc_context s) (sc_params s) (sc_stmts s) (sc_registry s ++ i :: tl) (sc_ext s)) /\
  osl_scop_register_extension s [] = Ok s.
Proof.
  intros s i tl u Hu H Hx. split; [|reflexivity]. unfold osl_scop_register_extension. rewrite (proj1 (interface_add_ok _ _) H). cbn [bind].
  rewrite Hu. now rewrite generic_lookup_absent.
Qed.
Print Assumptions C46_register.
(** An extension kept in textual form under the URI of the interface is not extracted, as the documentation of the
    function says: its data is used as if it were the extension itself. *)
Theorem C46_textual_refuted : exists s u,
  ~ In (Some u) (map if_uri (sc_registry s)) /\
  sc_ext s = [Generic (Some (Iface (Some u) KTextual)) (Some (DTextual (Some (lit "text"))))] /\
  osl_scop_register_extension s [Iface (Some u) KComment] = UB.
Proof.
  exists (Scop 1 None [] [] [] [] [Generic (Some (Iface (Some (lit "new")) KTextual)) (Some (DTextual (Some (lit "text"))))]), (lit "new").
  split; [intros []|]. split; reflexivity.
Qed.
Print Assumptions C46_textual_refuted.
(** Two interfaces of one list with one URI are both added: the second is never found. *)
Theorem C46_duplicates_refuted : exists new r, osl_interface_add [] new = Ok r /\ ~ NoDup (map if_uri r).
Proof.
  exists [Iface (Some (lit "a")) KNull; Iface (Some (lit "a")) KClay]. eexists. split; [reflexivity|]. intros H. inversion H as [|? ? X _]; subst. apply X. now left.
Qed.
Print Assumptions C46_duplicates_refuted.
Example C46_witness : osl_scop_register_extension (Scop 1 None [] [] [] default_registry []) [Iface (Some (lit "mine")) KTextual; Iface (Some (lit "other")) KClay] =
    Ok (Scop 1 None [] [] [] (default_registry ++ [Iface (Some (lit "mine")) KTextual; Iface (Some (lit "other")) KClay]) []) /\
  osl_scop_register_extension (Scop 1 None [] [] [] default_registry []) [osl_interface_of KBody] = Err.
Proof. split; vm_compute; reflexivity. Qed.
