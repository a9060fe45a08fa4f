(** * PrintProofs3: printing scops never fails *)
From Coq Require Import ZifyBool ZifyNat.
From Verif Require Import Base IntModel VectorModel RelationModel UtilModel StringsModel RelTextModel
  Spec RelSpec TextSpec ExprSpec LoopLemmas TextInt UtilProofs UtilProofs2 PropUtil RelTextProofs RelTextProofs2 RelTextProofs3 RelTextProofs4
  RelationProofs4 PropStrings PropRelText PropRelation2 PropExpr PropExpr2 ExtModel ExtSpec ExtProofs PropExt PropExt2 PropExt3 ScopModel ScopSpec PropScop
  SaveSpec SaveProofs SaveProofs2 SaveProofs3 SaveProofs4 PrintSpec PrintProofs PrintProofs2.

(** ** Names of arrays *)
Lemma put_names_total a : forall l, (forall x, In x a -> 1 <= fst x <= Z.of_nat (List.length l)) ->
  exists l', put_names a l = Ok l' /\ List.length l' = List.length l.
Proof.
  induction a as [|[id name] a IH]; intros l Hr; cbn [put_names]; [eauto|].
  pose proof (Hr (id, name) (or_introl eq_refl)) as Hi. cbn [fst] in Hi. unfold aset.
  destruct ((0 <=? id - 1) && (id - 1 <? Z.of_nat (List.length l))) eqn:E; [|lia]. cbn [bind].
  destruct (IH (list_set (Z.to_nat (id - 1)) name l)) as (l' & E' & L).
  - intros x Hx. rewrite list_set_length. apply Hr. now right.
  - exists l'. split; [assumption|]. rewrite L. apply list_set_length.
Qed.
Lemma put_names_keep a : forall l l' k, put_names a l = Ok l' -> 1 <= k -> ~ In k (map fst a) ->
  nth_error l' (Z.to_nat (k - 1)) = nth_error l (Z.to_nat (k - 1)).
Proof.
  induction a as [|[id name] a IH]; intros l l' k E Hk Hn; cbn [put_names] in E; [apply Ok_inj in E; now subst|].
  inv_bind E. unfold aset in E0. destruct (_ && _) eqn:B in E0; [|discriminate]. apply Ok_inj in E0. subst v.
  rewrite (IH _ _ _ E Hk) by (intros X; apply Hn; now right). rewrite nth_list_set by lia.
  destruct (Nat.eqb_spec (Z.to_nat (k - 1)) (Z.to_nat (id - 1))) as [X|X]; [|reflexivity]. exfalso. apply Hn. left. cbn. lia.
Qed.
Lemma put_names_last a : forall l l', put_names a l = Ok l' -> forall pre id name post, a = pre ++ (id, name) :: post ->
  ~ In id (map fst post) -> nth_error l' (Z.to_nat (id - 1)) = Some name.
Proof.
  induction a as [|[id0 name0] a IH]; intros l l' E pre id name post Ea Hn; [destruct pre; discriminate|].
  cbn [put_names] in E. inv_bind E. unfold aset in E0. destruct (_ && _) eqn:B in E0; [|discriminate]. apply Ok_inj in E0. subst v.
  destruct pre as [|x pre].
  - cbn [app] in Ea. assert (id0 = id /\ name0 = name /\ a = post) as (-> & -> & ->) by (split; [|split]; congruence).
    rewrite (put_names_keep _ _ _ _ E) by (assumption || lia). rewrite nth_list_set by lia. now rewrite Nat.eqb_refl.
  - cbn [app] in Ea. assert (a = pre ++ (id, name) :: post) by congruence. now apply (IH _ _ E pre id name post).
Qed.

Lemma put_names_short k b : forall l1 l', put_names b l1 = Ok l' -> Forall (fun w => zlength w <= k) l1 ->
  Forall (fun x : Z * str => 1 <= fst x /\ zlength (snd x) <= k) b -> Forall (fun w => zlength w <= k) l'.
Proof.
  induction b as [|[id w] b IH]; intros l1 l' E S A; cbn [put_names] in E; [apply Ok_inj in E; now subst|].
  inv_bind E. apply Forall_cons_iff in A. destruct A as [[_ A] A']. apply (IH v); [assumption| |assumption].
  now apply (aset_Forall (fun w => zlength w <= k) l1 (id - 1) w).
Qed.

Section P.
Variable cfg : config.
Variable p m : Z.
Hypothesis Hcfg : config_ok cfg.
Hypothesis Hsup : supported cfg p.
Hypothesis Hm : 16 <= m.

Lemma lookup_kind l k d : Forall (generic_ok cfg p default_registry) l -> In k [KStrings; KBody; KArrays] ->
  osl_generic_lookup l (uri_of k) = Some d -> payload_ok cfg p k d.
Proof.
  intros Hl Hk E. destruct (lookup_carries _ _ _ E) as (pre & k' & post & -> & _). apply Forall_app in Hl. destruct Hl as [_ Hl]. apply Forall_inv in Hl.
  inversion Hl as [r u k2 d2 Ht Hlk Hd Ho]; subst.
  assert (k' = k); [|now subst].
  destruct Hk as [<-|[<-|[<-|[]]]]; vm_compute in Hlk; congruence.
Qed.
Lemma bodies registry l : registry = default_registry -> Forall (scop_ok cfg p registry) l -> Forall bodies_are_bodies l.
Proof.
  intros ->. apply Forall_impl. intros s (_ & _ & _ & _ & _ & _ & _ & Hst & _). unfold bodies_are_bodies. revert Hst. apply Forall_impl.
  intros st (_ & _ & _ & _ & _ & Hg & _) d Hd. apply carries_lookup in Hd. apply (lookup_kind _ KBody) in Hd; [|assumption|cbn; tauto].
  inversion Hd; subst; eauto.
Qed.

(** ** Texts of extensions *)
Lemma generic_lines registry g : registry = default_registry -> generic_ok cfg p registry g -> extension_fits m g ->
  exists t, generic_sprint_one g = Ok t /\ lines t.
Proof.
  intros Hr Hg [Hf Hs]. destruct (all_print cfg p m Hcfg Hsup ltac:(lia)) as (_ & _ & A). destruct (A registry g Hg Hr Hf) as (t & E). exists t. split; [assumption|].
  assert (Hs' : short_lines t).
  { apply Hs. unfold osl_generic_sprint. cbn [generics_text]. rewrite E. cbn [bind]. now rewrite app_nil_r. }
  destruct Hg as [registry u k d Ht Hl Hd Ho].
  change (generic_sprint_one (Generic (Some (Iface (Some u) k)) (Some d))) with
      (o <- data_sprint k d ;; match o with None => Ok [] | Some content => a <- opening (Iface (Some u) k) ;; b <- closing (Iface (Some u) k) ;; Ok (a ++ content ++ b) end) in E.
  inv_bind E. destruct v as [content|]; [|apply Ok_inj in E; subst; constructor]. inv_bind E. inv_bind E. apply Ok_inj in E.
  rewrite (closing_ok (Iface (Some u) k) u _ eq_refl E2) in E. subst t.
  replace (v ++ content ++ end_tag u ++ [c_nl]) with ((v ++ content ++ end_tag u) ++ [c_nl]) in * by (rewrite <- !app_assoc; reflexivity). apply short_ended. exact Hs'.
Qed.
Lemma generics_lines l : Forall (generic_ok cfg p default_registry) l -> Forall (extension_fits m) l ->
  exists t, osl_generic_sprint l = Ok t /\ lines t.
Proof.
  unfold osl_generic_sprint. induction 1 as [|g l Hg Hl IH]; intros Hf; cbn [generics_text]; [exists []; split; [reflexivity|constructor]|].
  apply Forall_cons_iff in Hf. destruct Hf as [Hf Hfl]. destruct (generic_lines _ g eq_refl Hg Hf) as (t & -> & Ht). cbn [bind].
  destruct (IH Hfl) as (t' & E & Ht'). rewrite E. cbn [bind]. eexists. split; [reflexivity|].
  apply lines_app; [assumption|]. apply lines_app; [|assumption]. destruct l; [constructor|apply lines_nl].
Qed.

(** ** Changing names *)
Lemma named_params n P u : Forall (fun r => npar r <= zlength (elems P)) u -> named n u ->
  named (Names P (n_iters n) (n_scatt n) (n_locals n) (n_arrays n)) u.
Proof.
  intros H [H1 H2]. split; [|exact H2]. rewrite Forall_forall in *. intros r Hr. specialize (H r Hr). destruct (H1 r Hr) as (A & B & C & D & _).
  unfold enough_names. cbn [n_params n_iters n_scatt n_locals]. auto.
Qed.
Lemma named_iters n I u : Forall (fun r => (rtype r = TYPE_DOMAIN \/ rtype r = TYPE_CONTEXT -> nout r <= zlength (elems I)) /\ nin r <= zlength (elems I)) u -> named n u ->
  named (Names (n_params n) I (n_scatt n) (n_locals n) (n_arrays n)) u.
Proof.
  intros H [H1 H2]. split; [|exact H2]. rewrite Forall_forall in *. intros r Hr. destruct (H r Hr) as [X Y]. destruct (H1 r Hr) as (A & B & C & D & E).
  unfold enough_names. cbn [n_params n_iters n_scatt n_locals]. auto.
Qed.
Lemma named_arrays n A u : arrays_known u (zlength (elems A)) -> named n u ->
  named (Names (n_params n) (n_iters n) (n_scatt n) (n_locals n) A) u.
Proof. intros H [H1 H2]. split; [exact H1|exact H]. Qed.
Lemma short_split n : short_names m n <-> short_name_list m (elems (n_params n)) /\ short_name_list m (elems (n_iters n)) /\
  short_name_list m (elems (n_scatt n)) /\ short_name_list m (elems (n_locals n)) /\ short_name_list m (elems (n_arrays n)).
Proof. unfold short_names, short_name_list. rewrite !Forall_app. tauto. Qed.
Definition ready (n : names) : Prop := short_names m n /\ one_line_names (Some n).

(** Parameters *)
Lemma params_total n s : ready n -> scop_ok cfg p default_registry s -> coherent_scop s -> parameters_named m s ->
  Forall (named n) (relations_of_scop s) ->
  exists n', with_parameters n (sc_params s) = Ok n' /\ ready n' /\ Forall (named n') (relations_of_scop s).
Proof.
  intros [Hs Hone] Hok [C1 C2] Hpn Hn. pose proof Hok as (_ & _ & _ & Hne & _ & Hps & _).
  destruct Hps as [E|(k & d & E & Hg)]; [rewrite E; exists n; split; [reflexivity|split; [split; assumption|assumption]]|].
  assert (Hd : payload_ok cfg p KStrings d).
  { inversion Hg as [r u k2 d2 Ht Hlk Hd Ho]; subst. assert (k = KStrings) by (vm_compute in Hlk; congruence). now subst. }
  inversion Hd as [l Hl Hw| | | | | | | | | | | | | | | |]; subst.
  assert (Ew : with_parameters n (sc_params s) = Ok (Names (Some l) (n_iters n) (n_scatt n) (n_locals n) (n_arrays n))).
  { rewrite E. unfold with_parameters, has_uri. cbn [g_uri g_iface if_uri g_data]. change (uri_of KStrings) with (lit "strings"). rewrite str_eqb_refl. reflexivity. }
  assert (Hone' : one_line_names (Some (Names (Some l) (n_iters n) (n_scatt n) (n_locals n) (n_arrays n)))).
  { destruct Hone as (_ & O2 & O3 & O4 & O5). cbn [one_line_names n_params n_iters n_scatt n_locals n_arrays elems]. split; [|auto]. revert Hw. apply Forall_impl. intros w. apply word_no_nl. }
  destruct (Hpn _ (Some l) [] E) as [P1 P2]. cbn [elems] in *.
  eexists. split; [exact Ew|]. split.
  - split; [|assumption]. apply short_split. cbn [n_params n_iters n_scatt n_locals n_arrays elems]. apply short_split in Hs. tauto.
  - assert (Hpar : Forall (fun u => Forall (fun r => npar r <= zlength l) u) (relations_of_scop s)).
    { assert (Hu : forall u type outs ins, coherent u type outs ins (announced npar (sc_context s)) -> Forall (fun r => npar r <= zlength l) u).
      { intros u type outs ins Hc. destruct u as [|r u]; [constructor|].
        destruct (Hc r u eq_refl) as (_ & _ & _ & _ & _ & _ & _ & _ & _ & Hmeet & Hall & _).
        assert (npar r <= zlength l).
        { destruct Hmeet as [X|X]; [|lia]. destruct (sc_context s) as [|c0 cr] eqn:Ec; [congruence|]. cbn [announced] in X.
          destruct (C1 c0 cr eq_refl) as (_ & _ & _ & _ & Hu & _). congruence. }
        revert Hall. apply Forall_impl. intros x (_ & _ & -> & _). assumption. }
      unfold relations_of_scop. constructor.
      - destruct (sc_context s) as [|c0 cr] eqn:Ec; [congruence|].
        destruct (C1 c0 cr eq_refl) as (_ & _ & _ & _ & _ & _ & _ & _ & _ & _ & Hall & _).
        revert Hall. apply Forall_impl. intros x (_ & _ & -> & _). exact P2.
      - revert C2 Hu. generalize (announced npar (sc_context s)). intros ep C2 Hu. revert C2. generalize (sc_stmts s).
        induction l0 as [|x l0 IH]; intros C2; [constructor|]. cbn [relations_of_statements flat_map relations_of_statement].
        apply Forall_cons_iff in C2. destruct C2 as [(A1 & A2 & A3 & _) C2]. apply Forall_app. split; [|auto].
        constructor; [|constructor].
        + now apply Hu in A1.
        + now apply Hu in A2.
        + revert A3. apply Forall_impl. intros u Hc. now apply Hu in Hc. }
    rewrite Forall_forall in *. intros u Hu. apply named_params; [apply Hpar|apply Hn]; assumption.
Qed.

(** Arrays *)
Lemma dummy_short v s : v <= 2 ^ 31 - 1 -> osl_strings_generate (lit "Dummy") v = Ok s -> zlength (elems s) = v /\ Forall (fun w => zlength w <= 16) (elems s).
Proof.
  intros Hv H. apply generate_elems in H. destruct H as [H0 ->]. unfold generated_names. split.
  - unfold zlength. rewrite map_length, seq_length. lia.
  - apply Forall_forall. intros w Hw. apply in_map_iff in Hw. destruct Hw as (j & <- & Hj). apply in_seq in Hj.
    rewrite zlength_app. change (zlength (lit "Dummy")) with 5.
    pose proof (print_int_length (Z.of_nat j) ltac:(unfold c_int; lia)). lia.
Qed.
Lemma arrays_total n s : ready n -> scop_ok cfg p default_registry s -> coherent_scop s -> arrays_named m s ->
  Forall (good_union cfg p m) (relations_of_scop s) -> Forall (named n) (relations_of_scop s) ->
  exists n', with_arrays n (sc_ext s) = Ok n' /\ ready n' /\ Forall (named n') (relations_of_scop s).
Proof.
  intros [Hs Hone] Hok [C1 C2] Han Hg Hn. pose proof Hok as (_ & _ & _ & _ & Hco & _ & _ & Hst & (_ & He & _) & _).
  unfold with_arrays. destruct (osl_generic_lookup (sc_ext s) (uri_of KArrays)) as [d|] eqn:L; [|exists n; split; [reflexivity|split; [split; assumption|assumption]]].
  pose proof (lookup_kind _ KArrays _ He ltac:(cbn; tauto) L) as Hd. inversion Hd as [| | | | | | |a Ha| | | | | | | | |]; subst.
  apply lookup_carries in L. destruct (Han a L) as [A1 A2].
  assert (HT : exists o, osl_arrays_to_strings (Some a) = Ok (Some o) /\ short_name_list m (elems o) /\ Forall no_nl (elems o) /\
     forall x, In x a -> fst x <= zlength (elems o)).
  { destruct a as [|x0 a0]; [exists None; split; [reflexivity|split; [constructor|split; [constructor|intros ? []]]]|]. set (a := x0 :: a0) in *.
    destruct (max_id_spec a ltac:(discriminate)) as [(x & Hx & Ex) Hmax].
    assert (Hx1 : 1 <= fst x <= 2 ^ 31 - 1).
    { destruct Ha as [_ Ha]. rewrite Forall_forall in A1, Ha. destruct (A1 x Hx), (Ha x Hx) as [Hi _]. unfold c_int in Hi. lia. }
    destruct (C29_generate (lit "Dummy") (max_id a) ltac:(lia)) as (g & Eg & _). destruct (dummy_short (max_id a) g ltac:(lia) Eg) as [Lg Sg].
    assert (Ng : Forall no_nl (elems g)) by (eapply generate_no_nl; [|eassumption]; apply no_nlb_ok; reflexivity).
    unfold osl_arrays_to_strings. rewrite Eg. cbn [bind]. destruct g as [lg|]; [|cbn [elems] in Lg; unfold zlength in Lg; cbn [List.length] in Lg; lia]. cbn [elems] in *.
    destruct (put_names_total a lg) as (l' & El & Ll).
    { intros y Hy. rewrite Forall_forall in A1. destruct (A1 y Hy). specialize (Hmax y Hy). unfold zlength in Lg. lia. }
    exists (Some l'). unfold a at 1. cbn [elems]. fold a. rewrite El. cbn [bind]. split; [reflexivity|]. split; [|split].
    - apply (put_names_short m a lg l' El); [|assumption]. revert Sg. apply Forall_impl. intros w Hw. lia.
    - apply (SaveProofs4.put_names_ok a lg l'); [|assumption|assumption]. destruct Ha as [_ Ha]. revert Ha. apply Forall_impl. intros y [_ Hy]. now apply word_no_nl in Hy.
    - intros y Hy. specialize (Hmax y Hy). unfold zlength in *. rewrite Ll. lia. }
  destruct HT as (o & Eo & So & No & Lo). rewrite Eo. cbn [bind]. eexists. split; [reflexivity|]. split.
  - split.
    + apply short_split. cbn [n_params n_iters n_scatt n_locals n_arrays elems]. apply short_split in Hs. tauto.
    + destruct Hone as (O1 & O2 & O3 & O4 & O5). cbn [one_line_names n_params n_iters n_scatt n_locals n_arrays]. auto.
  - rewrite Forall_forall in Hn, Hg |- *. intros u Hu. apply named_arrays; [|auto]. intros Hacc.
    destruct u as [|r u]; [exists 0; split; [apply zlength_nonneg|split; constructor]|].
    destruct (Hg _ Hu) as ((t & Hsv) & _ & Hk). destruct (Hk Hacc) as (id & Hid & Hfix & Hsm). exists id. split; [|auto].
    unfold relations_of_scop in Hu.
    assert (Hin : exists st, In st (sc_stmts s) /\ In (r :: u) (st_access st)).
    { assert (Hnot : forall ty, (ty = TYPE_CONTEXT \/ ty = TYPE_DOMAIN \/ ty = TYPE_SCATTERING) -> Forall (savable cfg p ty) (r :: u) -> False).
      { intros ty Hty X. apply Forall_inv in X, Hacc. destruct X as (_ & _ & X & _). unfold access_type in Hacc. rewrite X in Hacc.
        destruct Hty as [->|[->| ->]]; cbn in Hacc; unfold TYPE_CONTEXT, TYPE_DOMAIN, TYPE_SCATTERING, TYPE_ACCESS, TYPE_READ, TYPE_WRITE, TYPE_MAY_WRITE in Hacc; lia. }
      destruct Hu as [X|X]; [exfalso; apply (Hnot TYPE_CONTEXT); [auto|]; rewrite <- X; apply Hco|].
      unfold relations_of_statements in X. apply in_flat_map in X. destruct X as (st & Hstin & X). exists st. split; [assumption|].
      rewrite Forall_forall in Hst. destruct (Hst st Hstin) as (Hdo & Hsc & _). destruct X as [X|[X|X]]; [| |assumption]; exfalso.
      - apply (Hnot TYPE_DOMAIN); [auto|]. rewrite <- X. apply Hdo.
      - apply (Hnot TYPE_SCATTERING); [auto|]. rewrite <- X. apply Hsc. }
    destruct Hin as (st & Hst1 & Hst2). rewrite Forall_forall in A2. specialize (A2 st Hst1). rewrite Forall_forall in A2. specialize (A2 _ Hst2).
    apply Forall_inv in A2. destruct (A2 id (Forall_inv Hfix)) as (x & Hx & Hle). specialize (Lo x Hx). cbn [n_arrays]. lia.
Qed.
End P.
