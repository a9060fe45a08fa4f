(** * PrintProofs: every extension that fits can be printed *)
From Coq Require Import ZifyBool ZifyNat.
From Verif Require Import Base IntModel VectorModel RelationModel UtilModel StringsModel RelTextModel
  Spec RelSpec TextSpec ExprSpec LoopLemmas TextInt UtilProofs UtilProofs2 PropUtil RelTextProofs RelTextProofs2 RelTextProofs3 RelTextProofs4
  PropStrings PropRelText PropRelation2 PropExpr PropExpr2 ExtModel ExtSpec ExtProofs PropExt PropExt2 PropExt3 ScopModel ScopSpec SaveSpec SaveProofs PrintSpec.

Lemma short_representable (cfg : config) p v : config_ok cfg -> supported cfg p -> - 2 ^ 31 < v <= 2 ^ 31 - 1 -> representable cfg p (- v).
Proof.
  intros Hc Hp Hv. unfold representable. destruct Hp as [->|[->|[-> Hg]]]; [left|right; left|right; right; auto]; (split; [reflexivity|]); [|lia].
  destruct Hc as [-> | ->]; lia.
Qed.
(** What fits is printable in the sense of C20. *)
Lemma fits_printable (cfg : config) p t m r : config_ok cfg -> supported cfg p -> savable cfg p t r -> relation_fits m r -> printable cfg 10 m r.
Proof.
  intros Hc Hp (W & Er & _ & Hn & _) (Hd & Hs & Hw). split; [assumption|]. split; [assumption|]. split.
  - assert (Er' : rows r = rm r).
    { destruct Hd as (Ho & Hi & Hl & Hq & Hc' & _). unfold rows. destruct (Z.eqb_spec (ncols r) 0); [lia|reflexivity]. }
    rewrite Er' in Hs. unfold short_coefficients. revert Hs. apply Forall_impl. intros row. apply Forall_impl. intros v Hv. split; [lia|].
    rewrite Er. now apply short_representable.
  - split; [unfold c_int in Hn; lia|]. replace (2 * 10 + m + 8) with (m + 28) by lia. assumption.
Qed.
Lemma union_printable (cfg : config) p t m u : config_ok cfg -> supported cfg p -> Forall (savable cfg p t) u -> union_fits m u ->
  Forall (printable cfg 10 m) u.
Proof.
  intros Hc Hp Hs [_ Hf]. rewrite Forall_forall in *. intros r Hr. apply (fits_printable cfg p t); auto.
Qed.
Lemma width_less (cfg : config) k m m' r : 0 <= ncols r -> m' <= m -> printable cfg k m r -> printable cfg k m' r.
Proof. intros H0 Hm (H1 & H2 & H3 & H4 & H5). repeat (split; [assumption|]). nia. Qed.

Lemma alone_prints (cfg : config) p t m r : config_ok cfg -> supported cfg p -> 12 <= m -> savable cfg p t r -> alone_fits m [r] ->
  exists text, osl_relation_sprint [r] = Ok text.
Proof.
  intros Hc Hp Hm Hs [Hf Ha]. assert (Hp1 : Forall (printable cfg 10 m) [r]) by (apply (union_printable cfg p t); auto).
  destruct (C20_sprints cfg 10 t [r]) as (text & E & _); try assumption.
  - lia.
  - discriminate.
  - unfold zlength. cbn. lia.
  - revert Hp1. apply Forall_impl. intros x Hx. apply (width_less cfg 10 m); [|lia|assumption]. destruct Hx as (W & _). apply W.
  - constructor; [|constructor]. apply Hs.
  - eauto.
Qed.

Lemma short_uri u i : osl_interface_lookup default_registry u = Some i -> zlength u <= 20 /\ if_uri i = Some u.
Proof.
  assert (G : forall l, osl_interface_lookup (List.map osl_interface_of l) u = Some i -> exists k, u = uri_of k /\ i = osl_interface_of k).
  { induction l as [|k l IH]; [discriminate|]. cbn [List.map osl_interface_lookup osl_interface_of if_uri]. destruct (str_eqb (uri_of k) u) eqn:E; [|exact IH].
    intros X. apply Some_inj in X. apply str_eqb_eq in E. exists k. split; [congruence|]. symmetry. exact X. }
  intros H. destruct (G _ H) as (k & -> & ->). split; [|reflexivity]. destruct k; vm_compute; discriminate.
Qed.
Lemma tags_print (u : str) k : zlength u <= 20 -> exists a b, opening (Iface (Some u) k) = Ok a /\ closing (Iface (Some u) k) = Ok b.
Proof.
  intros H. unfold opening, closing, buf_store. cbn [if_uri pr]. repeat rewrite zlength_cons, zlength_app. rewrite !zlength_cons.
  change (zlength (A := ascii) []) with 0. destruct (Z.ltb_spec (1 + (zlength u + (1 + (1 + 0)))) MAX_STRING) as [L|L]; [|unfold MAX_STRING in L; lia].
  rewrite zlength_app, !zlength_cons. change (zlength (A := ascii) []) with 0.
  destruct (Z.ltb_spec (1 + (1 + (zlength u + (1 + (1 + 0))))) MAX_STRING) as [L'|L']; [|unfold MAX_STRING in L'; lia]. eauto.
Qed.

Section P.
Variable cfg : config.
Variable p m : Z.
Hypothesis Hcfg : config_ok cfg.
Hypothesis Hsup : supported cfg p.
Hypothesis Hm : 12 <= m.

Lemma unrolls_size l : Forall unroll_ok l -> zlength (unrolls_text l) <= fold_right (fun u n => unroll_size u + n) 0 l.
Proof.
  induction 1 as [|u l ((i & Hi & _) & Hf) Hl IH]; [reflexivity|]. cbn [unrolls_text fold_right].
  assert (unroll_size u = zlength i + 62) as Hu by (unfold unroll_size; now rewrite Hi). rewrite Hi. cbn [pr].
  unfold lnZ, ln. rewrite !zlength_app. rewrite !zlength_cons. change (zlength (A := ascii) []) with 0.
  assert (c_int (un_factor u)) as Hc by (unfold c_int; lia). pose proof (print_int_length _ Hc).
  assert (zlength (print_Z (if un_jam u then 1 else 0)) = 1) by (destruct (un_jam u); reflexivity).
  assert (zlength (print_Z match l with [] => 0 | _ => 1 end) = 1) by (destruct l; reflexivity).
  change (zlength (lit "# Iterator name")) with 15. change (zlength (lit "# Jam")) with 5. change (zlength (lit "# Factor")) with 8. change (zlength (lit "# Next")) with 6. lia.
Qed.
Lemma dependences_print l : Forall (dependence_ok cfg p) l -> Forall (fun x => alone_fits m (de_domain x)) l ->
  forall n, exists t, dependences_sprint n l = Ok t.
Proof.
  induction 1 as [|d l Hd Hl IH]; intros Hf n; cbn [dependences_sprint]; [eauto|]. apply Forall_cons_iff in Hf. destruct Hf as [Hf Hfl].
  destruct Hd as (Hty & _ & _ & _ & _ & _ & _ & _ & r & t & Hdom & _ & Hs). destruct (dep_type_ok _ Hty) as (w & c & Ew & _).
  unfold dependence_sprint_one. rewrite Ew. cbn [bind]. rewrite Hdom in *. destruct (alone_prints cfg p t m r Hcfg Hsup Hm Hs Hf) as (text & E).
  rewrite E. cbn [bind]. destruct (IH Hfl (n + 1)) as (tl & ->). cbn [bind]. eauto.
Qed.

Definition data_prints (k : kind) (d : edata) : Prop := data_fits m d -> exists t, data_sprint k d = Ok (Some t).
Definition symbols_print (l : list symbol) : Prop := data_fits m (DSymbols l) -> forall n, exists t, symbols_text symbol_sprint n l = Ok t.
Definition generic_prints (registry : list interf) (g : generic) : Prop :=
  registry = default_registry -> generic_fits m g -> exists t, generic_sprint_one g = Ok t.
Lemma roundtrip_prints {A} printed (read : str -> res (A * str)) x : roundtrip printed read x -> exists t, printed = Ok (Some t).
Proof. intros (t & E & _). eauto. Qed.
Lemma words_print l : l <> [] -> Forall (word_string 2047) l -> exists t, osl_strings_sprint (Some (Some l)) = Ok t.
Proof. intros Hne H. destruct (C28_string_roundtrip l [] Hne (plain_of_words _ H)) as (t & E & _). eauto. Qed.

Lemma all_print : (forall k d, payload_ok cfg p k d -> data_prints k d) /\ (forall l, symbols_ok cfg p l -> symbols_print l) /\
  (forall registry g, generic_ok cfg p registry g -> generic_prints registry g).
Proof.
  apply save_ind.
  - intros l Hne Hw _. change (data_sprint KStrings (DStrings (Some l))) with (t <- osl_strings_sprint (Some (Some l)) ;; Ok (Some t)). destruct (words_print l Hne Hw) as (t & ->). cbn [bind]. eauto.
  - intros b Hb _. change (data_sprint KBody (DBody b)) with (t <- osl_body_sprint (Some b) ;; Ok (Some t)). destruct (body_prints b Hb) as (t & ->). cbn [bind]. eauto.
  - intros t r _ Hs Hf. change (data_sprint KRelation (DRelation [r])) with (t <- osl_relation_sprint [r] ;; Ok (Some t)). destruct (alone_prints cfg p t m r Hcfg Hsup Hm Hs Hf) as (text & ->). cbn [bind]. eauto.
  - intros c Hc _. change (data_sprint KComment (DComment (Some c))) with (osl_comment_sprint (Some (Some c))). destruct (C33_comment_roundtrip c ltac:(lia)) as (-> & _). eauto.
  - intros _. exists []. reflexivity.
  - intros i Hc Hi _. apply (roundtrip_prints _ osl_scatinfos_sread i). now apply C33_scatinfos_roundtrip.
  - intros l Hne Hw _. destruct (C33_scatnames_roundtrip l Hne Hw) as (t & E & _). eauto.
  - intros a Ha _. apply (roundtrip_prints _ osl_arrays_sread a). now apply C32_roundtrip.
  - intros c Hc _. apply (roundtrip_prints _ osl_coordinates_sread c). now apply C33_coordinates_roundtrip.
  - intros c Hc Hl _. destruct (C33_clay_roundtrip [] c) as (E & _); [constructor|assumption|cbn [app]; lia|]. eauto.
  - intros l Hne Hc Hl Hf. change (Forall (fun x => alone_fits m (de_domain x)) l) in Hf. change (data_sprint KDependence (DDependence l)) with (osl_dependence_sprint l). unfold osl_dependence_sprint.
    destruct (dependences_print l Hl Hf 1) as (t & ->). cbn [bind]. eauto.
  - intros l Hne Hc Hl IH Hlen Hf. change (data_sprint KSymbols (DSymbols l)) with (t <- symbols_text symbol_sprint 1 l ;; Ok (Some (ln (lit "# Number of symbols") ++ lnZ (zlength l) ++ t))).
    destruct (IH Hf 1) as (t & ->). cbn [bind]. eauto.
  - intros e He _. apply (roundtrip_prints _ osl_extbody_sread e). now apply C33_extbody_roundtrip.
  - intros l Hne Hc Hl _. apply (roundtrip_prints _ osl_loop_sread l). now apply C33_loop_roundtrip.
  - intros l Hne Hl Hf. change (fold_right (fun u n => unroll_size u + n) 0 l < 2000) in Hf. change (data_sprint KPlutoUnroll (DPlutoUnroll l)) with (osl_pluto_unroll_sprint l). unfold osl_pluto_unroll_sprint, buf_store.
    pose proof (unrolls_size l Hl) as X. rewrite zlength_app, (zlength_app (lnZ _)). 
    assert (zlength (lnZ match l with [] => 0 | _ => 1 end) = 2) by (destruct l; reflexivity). change (zlength (ln (lit "# Pluto unroll"))) with 15.
    match goal with |- context [?a <? MAX_STRING] => destruct (Z.ltb_spec a MAX_STRING) as [L|L]; [|unfold MAX_STRING in L; lia] end. cbn [bind]. eauto.
  - intros l Hne Hc Hl _. apply (roundtrip_prints _ osl_region_sread l). now apply C33_region_roundtrip.
  - intros a Ha _. apply (roundtrip_prints _ osl_annotation_sread a). now apply C33_annotation_roundtrip.
  - intros _ n. cbn. eauto.
  - intros type gen dims a b c e l _ _ _ _ IHa _ IHb _ IHc _ IHe _ IH Hf n.
    change (data_fits m (DSymbols (Symbol type gen dims [a] [b] [c] [e] :: l)))
      with (((generic_fits m a /\ True) /\ (generic_fits m b /\ True) /\ (generic_fits m c /\ True) /\ (generic_fits m e /\ True)) /\ data_fits m (DSymbols l)) in Hf.
    destruct Hf as (((Fa & _) & (Fb & _) & (Fc & _) & (Fe & _)) & Fl).
    destruct (IHa eq_refl Fa) as (ta & Ea). destruct (IHb eq_refl Fb) as (tb & Eb). destruct (IHc eq_refl Fc) as (tc & Ec). destruct (IHe eq_refl Fe) as (te & Ee).
    assert (S1 : exists t, symbol_sprint n (Symbol type gen dims [a] [b] [c] [e]) = Ok t).
    { change (symbol_sprint n (Symbol type gen dims [a] [b] [c] [e])) with
       (ta <- generics_text generic_sprint_one [a] ;; tb <- generics_text generic_sprint_one [b] ;;
        tc <- generics_text generic_sprint_one [c] ;; te <- generics_text generic_sprint_one [e] ;;
        Ok (ln (lit "# ===========================================")
          ++ lit "# " ++ print_Z n ++ lit " Data for symbol number " ++ print_Z n ++ ln [c_sp]
          ++ lit "# " ++ print_Z n ++ ln (lit ".1 Symbol type") ++ ln (symbol_type_string type)
          ++ symbol_title n (lit ".2 Generated Boolean") ++ lnZ gen
          ++ symbol_title n (lit ".3 Number of dimensions") ++ lnZ dims
          ++ symbol_title n (lit ".4 Identifier") ++ ta
          ++ symbol_title n (lit ".5 Datatype") ++ tb
          ++ symbol_title n (lit ".6 Scope") ++ tc
          ++ symbol_title n (lit ".7 Extent") ++ te)).
      cbn [generics_text]. rewrite Ea, Eb, Ec, Ee. cbn [bind]. eauto. }
    destruct S1 as (t1 & E1). cbn [symbols_text]. rewrite E1. cbn [bind]. destruct (IH Fl (n + 1)) as (t2 & E2).
    change ((fix go (n0 : Z) (l0 : list symbol) {struct l0} : res str := match l0 with [] => Ok [] | x :: tl => a0 <- symbol_sprint n0 x ;; b0 <- go (n0 + 1) tl ;; Ok (a0 ++ b0) end) (n + 1) l)
      with (symbols_text symbol_sprint (n + 1) l). rewrite E2. cbn [bind]. eauto.
  - intros registry u k d Ht Hl Hd IH Ho Hr Hf. subst registry. change (generic_fits m (Generic (Some (Iface (Some u) k)) (Some d))) with (data_fits m d) in Hf.
    destruct (IH Hf) as (t & E). destruct (short_uri u _ Hl) as [Hu _]. destruct (tags_print u k Hu) as (a & b & Ea & Eb).
    change (generic_sprint_one (Generic (Some (Iface (Some u) k)) (Some d))) with
      (o <- data_sprint k d ;; match o with None => Ok [] | Some content => a <- opening (Iface (Some u) k) ;; b <- closing (Iface (Some u) k) ;; Ok (a ++ content ++ b) end).
    rewrite E. cbn [bind].
    change (opening (Iface (@Some (list ascii) u) k)) with (opening (Iface (@Some str u) k)) in Ea. change (closing (Iface (@Some (list ascii) u) k)) with (closing (Iface (@Some str u) k)) in Eb. rewrite Ea, Eb. cbn [bind]. eauto.
Qed.
End P.
