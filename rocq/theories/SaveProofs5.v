(** * SaveProofs5: what is read back is equal to what was saved, for osl_scop_equal *)
From Coq Require Import ZifyBool ZifyNat.
From Verif Require Import Base IntModel VectorModel RelationModel UtilModel StringsModel RelTextModel
  Spec RelSpec TextSpec LoopLemmas TextInt UtilProofs UtilProofs2 PropUtil RelTextProofs RelTextProofs2 RelTextProofs3 RelTextProofs4
  PropStrings PropRelation PropRelText ExtModel ExtSpec ExtProofs PropExt PropExt2 PropExt3 ScopModel SaveSpec SaveProofs SaveProofs2 SaveProofs3 SaveProofs4.

Section P.
Variable cfg : config.
Variable p : Z.
Hypothesis Hcfg : config_ok cfg.

Definition twin (f : generic -> generic) (g : generic) : Prop := exists u k d d', g = Generic (Some (Iface (Some u) k)) (Some d) /\
  f g = Generic (Some (Iface (Some u) k)) (Some d') /\ data_equal k d (Some d') = Ok true.
Lemma kind_eqb_refl k : kind_eqb k k = true.
Proof. unfold kind_eqb. destruct (kind_eq_dec k k); congruence. Qed.
Lemma equal_one_eq u k d l2 : generic_equal_one (Generic (Some (Iface (Some u) k)) (Some d)) l2
  = generic_found (fun d2 => data_equal k d d2) (Some (Iface (Some u) k)) l2.
Proof. reflexivity. Qed.
Lemma found_twin f g m : twin f g -> Forall (twin f) m -> NoDup (map g_uri m) -> In g m -> generic_equal_one g (map f m) = Ok true.
Proof.
  intros (u & k & d & d' & Eg & Ef & Ed) Hm. subst g. rewrite equal_one_eq. induction Hm as [|x m Hx Hm IH]; intros Hn Hin; [destruct Hin|].
  cbn [map] in Hn. inversion Hn as [|? ? Hnx Hn']; subst. cbn [map generic_found]. destruct Hx as (u' & k' & e & e' & -> & Efx & _). rewrite Efx.
  cbn [g_iface g_data osl_interface_equal if_uri if_kind strcmp_eq bind]. destruct Hin as [Hin|Hin].
  - injection Hin as -> -> ->. rewrite str_eqb_refl, kind_eqb_refl. cbn [andb]. assert (e' = d') as -> by congruence. exact Ed.
  - destruct (str_eqb u u') eqn:E; [|cbn [andb]; now apply IH]. exfalso. apply str_eqb_eq in E. subst u'. apply Hnx.
    apply in_map_iff. eexists. split; [|exact Hin]. reflexivity.
Qed.
Lemma generics_twin f l : Forall (twin f) l -> NoDup (map g_uri l) -> osl_generic_equal l (map f l) = Ok true.
Proof.
  intros H Hn. unfold osl_generic_equal, generics_equal_with.
  assert (zlength l =? zlength (map f l) = true) as -> by (unfold zlength; rewrite map_length; lia). cbn [negb].
  assert (G : forall m, incl m l -> generics_found generic_equal_one (map f l) m = Ok true); [|apply G, incl_refl].
  induction m as [|g m IH]; intros Hi; [reflexivity|]. cbn [generics_found].
  rewrite (found_twin f g l); try assumption; [|rewrite Forall_forall in H; apply H, Hi; now left|apply Hi; now left]. cbn [bind].
  apply IH. intros x Hx. apply Hi. now right.
Qed.
Lemma relation_self t u : Forall (savable cfg p t) u -> osl_relation_equal u u = Ok true.
Proof.
  intros H. assert (W : wf_union cfg u) by (revert H; apply Forall_impl; unfold savable; tauto).
  exact (proj1 (C09_equal_equivalence cfg u u u Hcfg W W W)).
Qed.

Definition payload_same (k : kind) (d : edata) : Prop := comparable d -> data_equal k d (Some (reread d)) = Ok true.
Definition symbols_same (l : list symbol) : Prop := comparable (DSymbols l) -> match l with [] => True | x :: _ => symbol_equal x (reread_symbol x) = Ok true end.
Definition generic_same (r : list interf) (g : generic) : Prop := comparable_generic g -> twin reread_generic g.
Lemma symbol_equal_eq t g n a b c e : symbol_equal (Symbol t g n a b c e) (reread_symbol (Symbol t g n a b c e)) =
  (if negb ((t =? t) && (g =? g) && (n =? n)) then Ok false
      else
        x <- osl_generic_equal a (map reread_generic a) ;; if negb x then Ok false else
        x <- osl_generic_equal b (map reread_generic b) ;; if negb x then Ok false else
        x <- osl_generic_equal c (map reread_generic c) ;; if negb x then Ok false else
        osl_generic_equal e (map reread_generic e)).
Proof. reflexivity. Qed.
Lemma one_twin g : twin reread_generic g -> osl_generic_equal [g] (map reread_generic [g]) = Ok true.
Proof. intros H. apply generics_twin; repeat constructor; [assumption|intros []]. Qed.
Lemma all_same : (forall k d, payload_ok cfg p k d -> payload_same k d) /\ (forall l, symbols_ok cfg p l -> symbols_same l) /\
  (forall r g, generic_ok cfg p r g -> generic_same r g).
Proof.
  apply save_ind; unfold payload_same, symbols_same, generic_same.
  - intros l _ _ _. cbn [reread data_equal]. f_equal. now apply C29_equal.
  - intros b Hb _. cbn [reread data_equal]. f_equal. apply C34_equal_exact. split; destruct (bo_iterators b), (bo_expression b); reflexivity.
  - intros t r _ Hr _. cbn [reread data_equal]. apply (relation_self t). constructor; [assumption|constructor].
  - intros c _ _. cbn. reflexivity.
  - reflexivity.
  - intros i _ _ _. cbn [reread data_equal]. f_equal. now apply C33_scatinfos_equal.
  - intros l _ _ _. cbn [reread data_equal]. f_equal. now apply C33_scatnames_equal.
  - intros a _ _. cbn [reread data_equal]. f_equal. now apply C32_clone_equal.
  - intros c (( n & Hn & _) & _) _. cbn [reread data_equal]. destruct (C33_coordinates_equal c c n n Hn Hn) as (r & -> & Hr). f_equal. now apply Hr.
  - intros c _ _ _. cbn [reread data_equal]. destruct (C33_clay_equal c c) as (r & E & Hr). etransitivity; [exact E|]. f_equal. now apply Hr.
  - intros l Hne _ Hl _. cbn [reread data_equal]. assert (W : Forall (fun d => wf_union cfg (de_domain d)) l).
    { revert Hl. apply Forall_impl. intros d (_ & _ & _ & _ & _ & _ & _ & _ & r & t & -> & _ & Hr & _). constructor; [exact Hr|constructor]. }
    destruct (C33_dependence_equal cfg l l Hcfg W W Hne Hne) as (r & -> & Hr). f_equal. now apply Hr.
  - intros l Hne _ _ H _ Hc. specialize (H Hc). destruct l as [|x l]; [congruence|]. exact H.
  - intros e He _. cbn [reread data_equal]. f_equal. now apply C33_extbody_roundtrip.
  - intros l Hne _ Hl [Hc1 Hc2]. cbn [reread data_equal]. apply (C33_loop_equal l); [|assumption|assumption].
    intros x Hx. rewrite Forall_forall in Hl. destruct (Hl _ Hx) as ((i & Hi & _) & _). congruence.
  - intros l _ _ _. cbn [reread data_equal]. f_equal. now apply C33_pluto_unroll_equal.
  - intros l _ _ _ [].
  - intros a Ha _. cbn [reread data_equal]. now apply C33_annotation_roundtrip.
  - auto.
  - intros t g n a b c e l _ _ _ _ Ha _ Hb _ Hc _ He _ _ X. cbn [comparable fold_right comparable_symbol] in X. destruct X as [(X1 & X2 & X3 & X4) _].
    rewrite symbol_equal_eq, !Z.eqb_refl. cbn [andb negb]. rewrite !one_twin by tauto. reflexivity.
  - intros r u k d _ _ _ H _ Hc. exists u, k, d, (reread d). split; [reflexivity|]. split; [reflexivity|]. now apply H.
Qed.
Lemma same_generic r g : generic_ok cfg p r g -> comparable_generic g -> twin reread_generic g.
Proof. intros H. exact (proj2 (proj2 all_same) r g H). Qed.
Lemma same_file r g : generic_ok cfg p r g -> comparable_generic g -> twin reread_file g.
Proof.
  intros H Hc. pose proof (same_generic r g H Hc) as (u & k & d & d' & -> & E & X). exists u, k, d. destruct d; try (exists d'; split; [reflexivity|]; split; assumption).
  exists (DComment c). split; [reflexivity|]. split; [reflexivity|]. inversion H as [? ? ? ? _ _ Hd _]; subst. inversion Hd; subst. reflexivity.
Qed.
Lemma generics_same r l : generics_ok cfg p r l -> Forall comparable_generic l ->
  osl_generic_equal l (map reread_generic l) = Ok true /\ osl_generic_equal l (map reread_file l) = Ok true.
Proof.
  intros (_ & H & Hn) Hc. rewrite Forall_forall in H, Hc.
  split; apply generics_twin; try assumption; apply Forall_forall; intros g Hg; [apply (same_generic r)|apply (same_file r)]; auto.
Qed.
Lemma access_same l : Forall (access_ok cfg p) l -> osl_relation_list_equal l l = Ok true.
Proof.
  induction 1 as [|u l (Hne & t & Ht & Hu) H IH]; [reflexivity|]. cbn [osl_relation_list_equal]. rewrite (relation_self t) by apply Hu. cbn [bind]. exact IH.
Qed.
Lemma statements_same r l : Forall (statement_ok cfg p r) l -> Forall (fun st => Forall comparable_generic (st_ext st)) l ->
  osl_statement_equal l (map reread_statement l) = Ok true.
Proof.
  induction 1 as [|s l Hs H IH]; intros Hc; [reflexivity|]. apply Forall_cons_iff in Hc. destruct Hc as [Hc1 Hc]. specialize (IH Hc).
  cbn [map osl_statement_equal].
  assert (N : match l with [] => match map reread_statement l with [] => Ok true | _ :: _ => Ok false end
              | _ :: _ => match map reread_statement l with [] => Ok false | _ :: _ => osl_statement_equal l (map reread_statement l) end end = Ok true).
  { destruct l; [reflexivity|]. exact IH. }
  rewrite N. cbn [bind negb reread_statement st_domain st_scattering st_access st_ext].
  destruct Hs as (Hd & Hsc & _ & Ha & Hx). rewrite (relation_self TYPE_DOMAIN) by apply Hd. cbn [bind negb].
  rewrite (relation_self TYPE_SCATTERING) by apply Hsc. cbn [bind negb]. rewrite access_same by assumption. cbn [bind negb].
  now apply (generics_same r).
Qed.
Lemma scops_same r l : r <> [] -> Forall (fun i => if_uri i <> None) r -> Forall (scop_ok cfg p r) l -> Forall comparable_scop l -> osl_scop_equal l (map reread_scop l) = Ok true.
Proof.
  intros Hr Hru H. induction H as [|s l Hs H IH]; intros Hc; [reflexivity|]. apply Forall_cons_iff in Hc. destruct Hc as [(C1 & C2 & C3) Hc]. specialize (IH Hc).
  destruct Hs as (Hv & Hre & (w & Hw & _) & _ & Hco & Hps & _ & Hst & He & _).
  cbn [map osl_scop_equal reread_scop sc_version sc_language sc_context sc_params sc_stmts sc_registry sc_ext].
  rewrite Z.eqb_refl. cbn [negb]. rewrite Hw. cbn [strcmp_eq bind]. rewrite str_eqb_refl. cbn [negb].
  rewrite (relation_self TYPE_CONTEXT) by apply Hco. cbn [bind negb].
  assert (osl_generic_equal (sc_params s) (map reread_file (sc_params s)) = Ok true) as ->.
  { apply generics_twin.
    - destruct Hps as [E|(k & d & E & Hg)]; rewrite E in *; constructor; [|constructor]. apply (same_file r); [assumption|]. now apply Forall_cons_iff in C1.
    - destruct Hps as [E|(k & d & E & Hg)]; rewrite E; repeat constructor. intros []. }
  cbn [bind negb]. rewrite (statements_same r) by assumption. cbn [bind negb]. rewrite Hre. destruct r as [|[[u|] k] r]; [congruence| |].
  - cbn [hd_error osl_interface_equal strcmp_eq if_uri if_kind bind]. rewrite str_eqb_refl, kind_eqb_refl. cbn [andb bind negb].
    rewrite (proj1 (generics_same _ _ He C3)). cbn [bind negb]. exact IH.
  - apply Forall_cons_iff in Hru. destruct Hru as [X _]. now cbn in X.
Qed.
End P.
