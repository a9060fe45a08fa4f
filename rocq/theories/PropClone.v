(** * Properties C44 and C45: copies carry the same content; SCoPLib compatibility *)
From Verif Require Import Base LoopLemmas IntModel VectorModel IntProofs RelationModel UtilModel StringsModel RelTextModel Spec RelSpec
  RelationProofs PropRelation PropStrings ExtModel ExtSpec ExtProofs PropExt PropExt2 PropExt3 RelTextProofs ScopModel ScopSpec PropScop SaveProofs5 CloneModel CloneSpec.

Section CLONE_PROOFS.
Context {cfg : config}.
Hypothesis Hc : config_ok cfg.

(** ** Induction over data, symbols and extensions *)
Section IND.
Variables (P : edata -> Prop) (Q : symbol -> Prop) (R : generic -> Prop).
Hypothesis Hleaf : forall d, (forall l, d <> DSymbols l) -> P d.
Hypothesis Hsym : forall l, Forall Q l -> P (DSymbols l).
Hypothesis Hsymbol : forall t g n a b c e, Forall R a -> Forall R b -> Forall R c -> Forall R e -> Q (Symbol t g n a b c e).
Hypothesis Hnone : forall i, R (Generic i None).
Hypothesis Hsome : forall i d, P d -> R (Generic i (Some d)).
Fixpoint edata_all (d : edata) : P d
with symbol_all (x : symbol) : Q x
with generic_all (g : generic) : R g.
Proof.
  - destruct d; try (apply Hleaf; discriminate). apply Hsym.
    revert l. fix F 1. intros [|x tl]; constructor; [apply symbol_all|apply F].
  - destruct x as [t g n a b c e].
    assert (F : forall l, Forall R l) by (fix F 1; intros [|x tl]; constructor; [apply generic_all|apply F]).
    apply Hsymbol; apply F.
  - destruct g as [i [d|]]; [apply Hsome, edata_all|apply Hnone].
Defined.
End IND.

(** ** Interfaces *)
Lemma interface_lookup_absent l u : ~ In (Some u) (map if_uri l) -> osl_interface_lookup l u = None.
Proof.
  induction l as [|[o k] l IH]; intros H; [reflexivity|]. cbn in *. destruct o as [v|]; [|apply IH; tauto].
  destruct (str_eqb v u) eqn:E; [|apply IH; tauto]. apply str_eqb_eq in E. subst. tauto.
Qed.
Lemma interface_nclone_ok l : forall n i acc,
  Forall (fun x => if_uri x <> None) l -> NoDup (map if_uri (acc ++ l)) -> 0 <= i -> -1 <= n ->
  interface_nclone_loop l n i acc = Ok (acc ++ if n =? -1 then l else firstn (Z.to_nat (n - i)) l).
Proof.
  induction l as [|[o k] l IH]; intros n i acc Hu Hn Hi Hn'; cbn [interface_nclone_loop].
  - destruct (n =? -1); [|rewrite firstn_nil]; now rewrite app_nil_r.
  - inversion Hu as [|? ? Ho Hu']; subst. destruct o as [u|]; [|easy].
    destruct ((n =? -1) || (i <? n)) eqn:E.
    + unfold osl_interface_add, OSL_strdup. cbn [if_uri if_kind interfaces_fit].
      rewrite interface_lookup_absent.
      2:{ rewrite map_app in Hn. apply NoDup_remove_2 in Hn. cbn in Hn. intros H. apply Hn. apply in_or_app. now left. }
      cbn [bind interfaces_fit]. rewrite IH; [|assumption|rewrite <- app_assoc; exact Hn|lia|lia].
      rewrite <- app_assoc. cbn [app]. f_equal. f_equal. destruct (Z.eqb_spec n (-1)); [reflexivity|].
      cbn in E. apply Z.ltb_lt in E. replace (Z.to_nat (n - i)) with (S (Z.to_nat (n - (i + 1)))) by lia. reflexivity.
    + apply orb_false_iff in E as [E1 E2]. rewrite E1. apply Z.ltb_ge in E2.
      replace (Z.to_nat (n - i)) with O by lia. now rewrite app_nil_r.
Qed.
Lemma interface_clone_ok l : clonable_interfaces l -> osl_interface_clone l = Ok l.
Proof.
  intros [Hn Hu]. unfold osl_interface_clone, osl_interface_nclone. rewrite interface_nclone_ok by (auto; lia). reflexivity.
Qed.

(** ** Lists of extensions *)
Lemma generic_lookup_absent l u : ~ In (Some u) (map g_uri l) -> osl_generic_lookup l u = None.
Proof.
  induction l as [|g l IH]; intros H; [reflexivity|]. cbn [osl_generic_lookup]. unfold has_uri. cbn in H.
  destruct (g_uri g) as [v|] eqn:E; [|apply IH; tauto].
  destruct (str_eqb v u) eqn:E'; [|apply IH; tauto]. apply str_eqb_eq in E'. subst. tauto.
Qed.
Lemma generics_nclone_ok f l : forall n acc,
  Forall (fun g => f g = Ok (Some g)) l -> Forall (fun g => g_uri g <> None) l -> NoDup (map g_uri (acc ++ l)) ->
  generics_nclone f n l acc = Ok (acc ++ firstn (Z.to_nat n) l).
Proof.
  induction l as [|g l IH]; intros n acc Hf Hu Hn; cbn [generics_nclone].
  - now rewrite firstn_nil, app_nil_r.
  - inversion Hf as [|? ? Ef Hf']; subst. inversion Hu as [|? ? Eu Hu']; subst.
    destruct (Z.ltb_spec 0 n).
    + rewrite Ef. cbn [bind]. unfold osl_generic_add. destruct (g_uri g) as [u|] eqn:Eg; [|easy].
      rewrite generic_lookup_absent.
      2:{ rewrite map_app in Hn. cbn [map] in Hn. apply NoDup_remove_2 in Hn. intros H'. apply Hn. apply in_or_app. left. now rewrite Eg. }
      cbn [bind]. fold (generics_nclone f). rewrite IH; [|assumption..|rewrite <- app_assoc; exact Hn].
      rewrite <- app_assoc. replace (Z.to_nat n) with (S (Z.to_nat (n - 1))) by lia. reflexivity.
    + replace (Z.to_nat n) with O by lia. now rewrite app_nil_r.
Qed.
Lemma symbols_nclone_ok f l : forall n i acc, Forall (fun x => f x = Ok x) l -> 0 <= i -> -1 <= n ->
  symbols_nclone_loop f n i l acc = Ok (acc ++ if n =? -1 then l else firstn (Z.to_nat (n - i)) l).
Proof.
  induction l as [|x l IH]; intros n i acc Hf Hi Hn; cbn [symbols_nclone_loop].
  - destruct (n =? -1); [|rewrite firstn_nil]; now rewrite app_nil_r.
  - inversion Hf as [|? ? Ef Hf']; subst. destruct ((n =? -1) || (i <? n)) eqn:E.
    + rewrite Ef. cbn [bind]. fold (symbols_nclone_loop f). rewrite IH by (auto; lia). rewrite <- app_assoc. cbn [app].
      f_equal. f_equal. destruct (Z.eqb_spec n (-1)); [reflexivity|]. cbn in E. apply Z.ltb_lt in E.
      replace (Z.to_nat (n - i)) with (S (Z.to_nat (n - (i + 1)))) by lia. reflexivity.
    + apply orb_false_iff in E as [E1 E2]. rewrite E1. apply Z.ltb_ge in E2.
      replace (Z.to_nat (n - i)) with O by lia. now rewrite app_nil_r.
Qed.

(** ** Data *)
Lemma strings_clone_same s : has_array s -> osl_strings_clone (Some s) = Some s.
Proof.
  destruct s as [l|]; [|intros H; now destruct H]. intros _. unfold osl_strings_clone. rewrite C29_size.
  destruct l as [|x l]; reflexivity.
Qed.
Lemma no_or_array_clone s : no_or_array s -> osl_strings_clone s = s.
Proof. destruct s as [s|]; [apply strings_clone_same|reflexivity]. Qed.
Lemma clone_union u : Forall (wf_rel cfg) u -> osl_relation_clone u = Ok u.
Proof. intros H. now apply C10_clone_equal. Qed.
Lemma fold_Forall {A} (P : A -> Prop) l : fold_right (fun x Q => P x /\ Q) True l <-> Forall P l.
Proof. induction l as [|x l IH]; cbn; [easy|]. rewrite Forall_cons_iff, IH. reflexivity. Qed.
Lemma some_list_ne {A} (f : list A -> edata) l : l <> [] -> some_list f l = Some (f l).
Proof. destruct l; [easy|reflexivity]. Qed.
Lemma clonable_uri g : clonable_generic cfg g -> g_uri g <> None.
Proof. destruct g as [[[[u|] k]|] [d|]]; cbn; try easy. Qed.
Lemma clone_all :
  (forall d k, clonable cfg k d -> data_clone k d = Ok (Some d)) /\
  (forall x, clonable_symbol cfg x -> symbol_clone x = Ok x) /\
  (forall g, clonable_generic cfg g -> generic_clone_one g = Ok (Some g)).
Proof.
  set (P := fun d => forall k, clonable cfg k d -> data_clone k d = Ok (Some d)).
  set (Q := fun x => clonable_symbol cfg x -> symbol_clone x = Ok x).
  set (R := fun g => clonable_generic cfg g -> generic_clone_one g = Ok (Some g)).
  assert (H1 : forall d, (forall l, d <> DSymbols l) -> P d).
  { intros d Hd k. destruct d; try (specialize (Hd _ eq_refl) as []; fail); destruct k; cbn [clonable]; try easy;
      intros H; cbn [data_clone].
    - now rewrite strings_clone_same.
    - destruct b as [i e]. destruct H as [Hi He]. cbn [bo_iterators bo_expression] in *.
      cbn [osl_body_clone bo_iterators bo_expression]. now rewrite !no_or_array_clone.
    - destruct H as [Hu H]. rewrite clone_union by assumption. cbn [bind]. now rewrite some_list_ne.
    - destruct t; reflexivity.
    - destruct c; reflexivity.
    - now rewrite scatinfos_clone_ok.
    - cbn [osl_scatnames_clone]. now rewrite no_or_array_clone.
    - destruct (C32_clone_equal a) as [-> _]. reflexivity.
    - destruct c as [[n|] ? ? ? ? ?]; reflexivity.
    - destruct c; reflexivity.
    - destruct H as [Hl H]. unfold osl_dependence_clone.
      replace (mapM _ l) with (Ok l); [cbn [bind]; now rewrite some_list_ne|]. symmetry. clear Hl Hd.
      induction H as [|x l Hx H IH]; [reflexivity|]. cbn [mapM]. rewrite clone_union by assumption. cbn [bind].
      rewrite IH. destruct x. reflexivity.
    - destruct e as [a [b|]]; cbn [osl_extbody_clone eb_access eb_body] in *; rewrite copy_array_ok by (intros [? ?] _; reflexivity);
        cbn [bind]; [|reflexivity]. destruct b as [i e]. destruct H as [Hi He]. cbn [bo_iterators bo_expression] in *.
      cbn [osl_body_clone bo_iterators bo_expression]. now rewrite !no_or_array_clone.
    - rewrite C33_loop_clone. cbn [bind]. now rewrite some_list_ne.
    - rewrite C33_pluto_unroll_clone. now rewrite some_list_ne.
    - destruct H as [Hl H]. unfold osl_region_clone.
      replace (mapM _ l) with (Ok l); [cbn [bind]; now rewrite some_list_ne|]. symmetry. clear Hl Hd.
      induction H as [|[lo p s pl po] l (Hp & Hs & Hpl & Hpo) H IH]; [reflexivity|]. cbn [mapM re_prefix re_suffix re_prelude re_postlude] in *.
      rewrite !text_clone_ok by assumption. cbn [bind]. rewrite IH. reflexivity.
    - destruct a as [p s]. destruct H as [Hp Hs]. cbn [osl_annotation_clone an_prefix an_suffix] in *. now rewrite !text_clone_ok. }
  assert (H2 : forall l, Forall Q l -> P (DSymbols l)).
  { intros l Hl k. destruct k; cbn [clonable]; try easy. intros [Hne H]. apply fold_Forall in H. cbn [data_clone].
    rewrite symbols_nclone_ok; [|clear Hne|lia..].
    - change (-1 =? -1) with true. cbn [app bind]. now rewrite some_list_ne.
    - induction Hl as [|x l Hx Hl IH]; [constructor|]. apply Forall_cons_iff in H as [Hx' H]. constructor; auto. }
  assert (H3 : forall l, Forall R l -> fold_right (fun x P => clonable_generic cfg x /\ P) True l /\ NoDup (map g_uri l) ->
             generics_nclone generic_clone_one (osl_generic_number l) l [] = Ok l).
  { intros l Hl [Hf Hn]. apply fold_Forall in Hf. rewrite generics_nclone_ok; [|clear Hn; induction Hl; inversion Hf; subst; constructor; auto|
      eapply Forall_impl; [|exact Hf]; apply clonable_uri|exact Hn].
    unfold osl_generic_number. unfold zlength. rewrite Nat2Z.id, firstn_all. reflexivity. }
  assert (H4 : forall t g n a b c e, Forall R a -> Forall R b -> Forall R c -> Forall R e -> Q (Symbol t g n a b c e)).
  { intros t g n a b c e Ha Hb Hcc He (Ka & Kb & Kc & Ke). cbn [symbol_clone]. now rewrite !H3. }
  assert (H5 : forall i, R (Generic i None)).
  { intros [[[u|] k]|] H; cbn in H; try easy. destruct k; try reflexivity. easy. }
  assert (H6 : forall i d, P d -> R (Generic i (Some d))).
  { intros [[[u|] k]|] d Hd H; try easy. change (clonable cfg k d) in H.
    change (generic_clone_one (Generic (Some (Iface (Some u) k)) (Some d)))
      with (x <- data_clone k d ;; l <- osl_interface_clone [Iface (Some u) k] ;; Ok (Some (Generic (hd_error l) x))).
    rewrite (Hd _ H). cbn [bind].
    rewrite interface_clone_ok; [reflexivity|]. split; cbn; [apply NoDup_cons; [easy|constructor]|now repeat constructor]. }
  split; [|split].
  - now apply (edata_all P Q R).
  - now apply (symbol_all P Q R).
  - now apply (generic_all P Q R).
Qed.

Lemma generics_clone_ok l n : clonable_generics cfg l ->
  osl_generic_nclone l n = Ok (if n <? 0 then l else firstn (Z.to_nat n) l).
Proof.
  intros [H Hn]. unfold osl_generic_nclone. rewrite generics_nclone_ok; [|eapply Forall_impl; [|exact H]; apply clone_all|
    eapply Forall_impl; [|exact H]; apply clonable_uri|exact Hn].
  cbn [app]. f_equal. destruct (n <? 0); [|reflexivity]. unfold osl_generic_number, zlength. now rewrite Nat2Z.id, firstn_all.
Qed.
Lemma generic_clone_ok l : clonable_generics cfg l -> osl_generic_clone l = Ok l.
Proof. intros H. apply (generics_clone_ok l (-1) H). Qed.
Lemma relation_list_clone_ok l : Forall (Forall (wf_rel cfg)) l -> osl_relation_list_clone l = Ok l.
Proof. induction 1 as [|u l Hu H IH]; [reflexivity|]. cbn [osl_relation_list_clone]. rewrite clone_union by assumption. cbn [bind]. now rewrite IH. Qed.
Lemma statement_nclone_ok l : forall n i, Forall (clonable_statement cfg) l -> 0 <= i -> -1 <= n ->
  statement_nclone_loop l n i = Ok (if n =? -1 then l else firstn (Z.to_nat (n - i)) l).
Proof.
  induction l as [|s l IH]; intros n i H Hi Hn; cbn [statement_nclone_loop].
  - destruct (n =? -1); [|rewrite firstn_nil]; reflexivity.
  - inversion H as [|? ? (H1 & H2 & H3 & H4) H']; subst. destruct ((n =? -1) || (i <? n)) eqn:E.
    + rewrite !clone_union by assumption. cbn [bind]. rewrite relation_list_clone_ok by assumption. cbn [bind].
      rewrite generic_clone_ok by assumption. cbn [bind]. rewrite IH by (auto; lia). cbn [bind]. f_equal.
      destruct (Z.eqb_spec n (-1)); [now destruct s|]. cbn in E. apply Z.ltb_lt in E.
      replace (Z.to_nat (n - i)) with (S (Z.to_nat (n - (i + 1)))) by lia. cbn [firstn]. now destruct s.
    + apply orb_false_iff in E as [E1 E2]. rewrite E1. apply Z.ltb_ge in E2. now replace (Z.to_nat (n - i)) with O by lia.
Qed.
Lemma scop_clone_ok l : Forall (clonable_scop cfg) l -> osl_scop_clone l = Ok l.
Proof.
  induction 1 as [|s l (H1 & H2 & H3 & H4 & H5) H IH]; [reflexivity|]. cbn [osl_scop_clone].
  rewrite clone_union by assumption. cbn [bind]. rewrite generic_clone_ok by assumption. cbn [bind].
  unfold osl_statement_clone, osl_statement_nclone. rewrite statement_nclone_ok by (auto; lia). change (-1 =? -1) with true. cbn [bind].
  rewrite interface_clone_ok by assumption. cbn [bind]. rewrite generic_clone_ok by assumption. cbn [bind]. rewrite IH. cbn [bind].
  f_equal. f_equal. destruct s as [v [w|] c p t r e]; reflexivity.
Qed.

(** ** Equality accepts copies *)
Lemma union_self u : Forall (wf_rel cfg) u -> osl_relation_equal u u = Ok true.
Proof. intros W. exact (proj1 (C09_equal_equivalence cfg u u u Hc W W W)). Qed.
Definition same_one (g : generic) : Prop :=
  exists u k o, g = Generic (Some (Iface (Some u) k)) o /\
    match o with Some d => data_equal k d (Some d) = Ok true | None => null_equal k None = Ok true end.
Lemma found_self g m : same_one g -> Forall (fun x => g_uri x <> None) m -> NoDup (map g_uri m) -> In g m ->
  generic_equal_one g m = Ok true.
Proof.
  intros (u & k & o & -> & Ho) Hm Hn Hin.
  assert (E0 : generic_equal_one (Generic (Some (Iface (Some u) k)) o) m =
    generic_found (fun d2 => match o with None => null_equal k d2 | Some d => data_equal k d d2 end) (Some (Iface (Some u) k)) m) by (destruct o; reflexivity).
  rewrite E0. clear E0. induction m as [|x m IH]; [destruct Hin|]. inversion Hm as [|? ? Hx Hm']; subst. cbn [map] in Hn. inversion Hn as [|? ? Hnx Hn']; subst.
  cbn [generic_found]. destruct Hin as [->|Hin].
  - cbn [g_iface g_data osl_interface_equal if_uri if_kind strcmp_eq bind]. rewrite str_eqb_refl, kind_eqb_refl. cbn [andb].
    destruct o; exact Ho.
  - destruct x as [[[[v|] k']|] o']; cbn in Hx; try easy.
    cbn [g_iface g_data osl_interface_equal if_uri if_kind strcmp_eq bind].
    destruct (str_eqb u v) eqn:E; [|cbn [andb]; now apply IH]. exfalso. apply str_eqb_eq in E. subst v. apply Hnx.
    apply in_map_iff. eexists. split; [|exact Hin]. reflexivity.
Qed.
Lemma generics_self l : Forall same_one l -> NoDup (map g_uri l) -> osl_generic_equal l l = Ok true.
Proof.
  intros H Hn. unfold osl_generic_equal, generics_equal_with. rewrite Z.eqb_refl. cbn [negb].
  assert (U : Forall (fun x => g_uri x <> None) l) by (eapply Forall_impl; [|exact H]; intros g (u & k & o & -> & _); discriminate).
  assert (G : forall m, incl m l -> generics_found generic_equal_one l m = Ok true); [|apply G, incl_refl].
  induction m as [|g m IH]; intros Hi; [reflexivity|]. cbn [generics_found].
  rewrite (found_self g l); try assumption; [|rewrite Forall_forall in H; apply H, Hi; now left|apply Hi; now left]. cbn [bind].
  apply IH. intros x Hx. apply Hi. now right.
Qed.
Lemma uniform_of {A} (f : A -> option str) l : all_or_none f l -> uniform f l.
Proof. intros [H|H]; [left|right]; apply Forall_forall; exact H. Qed.
Lemma self_all :
  (forall d k, clonable cfg k d -> self_comparable d -> data_equal k d (Some d) = Ok true) /\
  (forall x, clonable_symbol cfg x -> self_comparable_symbol x -> symbol_equal x x = Ok true) /\
  (forall g, clonable_generic cfg g -> self_comparable_generic g -> same_one g).
Proof.
  set (P := fun d => forall k, clonable cfg k d -> self_comparable d -> data_equal k d (Some d) = Ok true).
  set (Q := fun x => clonable_symbol cfg x -> self_comparable_symbol x -> symbol_equal x x = Ok true).
  set (R := fun g => clonable_generic cfg g -> self_comparable_generic g -> same_one g).
  assert (H1 : forall d, (forall l, d <> DSymbols l) -> P d).
  { intros d Hd k. destruct d; try (specialize (Hd _ eq_refl) as []; fail); destruct k; cbn [clonable]; try easy;
      cbn [self_comparable]; intros H S; cbn [data_equal]; try reflexivity.
    - f_equal. now apply C29_equal.
    - f_equal. apply C34_equal_exact. split; destruct (bo_iterators b), (bo_expression b); reflexivity.
    - now apply union_self.
    - destruct c as [c|]; [reflexivity|easy].
    - f_equal. now apply C33_scatinfos_equal.
    - f_equal. destruct n as [n|]; [|reflexivity]. now apply C29_equal.
    - f_equal. now apply C32_clone_equal.
    - destruct (co_name c) as [n|] eqn:En; [|easy]. destruct (C33_coordinates_equal c c n n En En) as (r & -> & Hr). f_equal. now apply Hr.
    - destruct c as [c|]; [|easy]. destruct (C33_clay_equal c c) as (r & E & Hr). etransitivity; [exact E|]. f_equal. now apply Hr.
    - destruct H as [Hl H]. destruct (C33_dependence_equal cfg l l Hc H H Hl Hl) as (r & -> & Hr). f_equal. now apply Hr.
    - destruct e as [a b]. f_equal. cbn [osl_extbody_equal eb_access eb_body]. rewrite Z.eqb_refl. cbn [negb].
      assert (all_found pair_eqb a a = true) as ->.
      { unfold all_found. apply forallb_forall. intros x Hx. apply existsb_exists. exists x. split; [assumption|]. unfold pair_eqb. now rewrite !Z.eqb_refl. }
      cbn [negb]. destruct b as [b|]; [|reflexivity]. apply C34_equal_exact. split; destruct (bo_iterators b), (bo_expression b); reflexivity.
    - destruct S as (S1 & S2 & S3). apply C33_loop_equal; [apply Forall_forall; exact S1|now apply uniform_of..].
    - f_equal. now apply C33_pluto_unroll_equal.
    - destruct H as [Hp Hs]. assert (F : Forall (fun x => snd x <> None) (an_prefix a ++ an_suffix a)) by now apply Forall_app.
      destruct (C33_annotation_equal a a F F) as (r & -> & Hr). f_equal. now apply Hr. }
  assert (H2 : forall l, Forall Q l -> P (DSymbols l)).
  { intros l Hl k. destruct k; cbn [clonable]; try easy. intros [Hne H] S. apply fold_Forall in H. cbn [self_comparable] in S. apply fold_Forall in S.
    destruct l as [|x l]; [easy|]. inversion Hl; subst. inversion H; subst. inversion S; subst. cbn [data_equal]. auto. }
  assert (H3 : forall l, Forall R l -> fold_right (fun x P => clonable_generic cfg x /\ P) True l /\ NoDup (map g_uri l) ->
             fold_right (fun x P => self_comparable_generic x /\ P) True l -> osl_generic_equal l l = Ok true).
  { intros l Hl [Hf Hn] Hs. apply fold_Forall in Hf, Hs. apply generics_self; [|exact Hn].
    clear Hn. induction Hl; inversion Hf; inversion Hs; subst; constructor; auto. }
  assert (H4 : forall t g n a b c e, Forall R a -> Forall R b -> Forall R c -> Forall R e -> Q (Symbol t g n a b c e)).
  { intros t g n a b c e Ha Hb Hcc He (Ka & Kb & Kc & Ke) (Sa & Sb & Sc & Se).
    change (symbol_equal (Symbol t g n a b c e) (Symbol t g n a b c e)) with
      (if negb ((t =? t) && (g =? g) && (n =? n)) then Ok false
      else
        x <- osl_generic_equal a a ;; if negb x then Ok false else
        x <- osl_generic_equal b b ;; if negb x then Ok false else
        x <- osl_generic_equal c c ;; if negb x then Ok false else
        osl_generic_equal e e).
    rewrite !Z.eqb_refl. cbn [andb negb]. now rewrite !H3. }
  assert (H5 : forall i, R (Generic i None)).
  { intros [[[u|] k]|] H S; try easy. exists u, k, None. split; [reflexivity|]. cbn in S. destruct k; try reflexivity. easy. }
  assert (H6 : forall i d, P d -> R (Generic i (Some d))).
  { intros [[[u|] k]|] d Hd H S; try easy. exists u, k, (Some d). split; [reflexivity|]. apply Hd; [exact H|exact S]. }
  split; [|split].
  - now apply (edata_all P Q R).
  - now apply (symbol_all P Q R).
  - now apply (generic_all P Q R).
Qed.
Lemma generics_self_ok l : clonable_generics cfg l -> Forall self_comparable_generic l -> osl_generic_equal l l = Ok true.
Proof.
  intros [H Hn] S. apply generics_self; [|assumption]. clear Hn. induction H; inversion S; subst; constructor; auto. now apply self_all.
Qed.
Lemma statements_self l : Forall (clonable_statement cfg) l -> Forall (fun st => Forall self_comparable_generic (st_ext st)) l ->
  osl_statement_equal l l = Ok true.
Proof.
  induction 1 as [|s l (H1 & H2 & H3 & H4) H IH]; intros S; [reflexivity|]. inversion S as [|? ? S1 S']; subst. specialize (IH S').
  cbn [osl_statement_equal].
  assert (N : match l with [] => match l with [] => Ok true | _ :: _ => Ok false end
              | _ :: _ => match l with [] => Ok false | _ :: _ => osl_statement_equal l l end end = Ok true) by (destruct l; [reflexivity|exact IH]).
  rewrite N. cbn [bind negb]. rewrite !union_self by assumption. cbn [bind negb].
  assert (osl_relation_list_equal (st_access s) (st_access s) = Ok true) as ->.
  { clear - H3 Hc. induction H3 as [|u l Hu H IH]; [reflexivity|]. cbn [osl_relation_list_equal]. rewrite union_self by assumption. exact IH. }
  cbn [bind negb]. now apply generics_self_ok.
Qed.
Lemma scops_self l : Forall (clonable_scop cfg) l -> Forall self_comparable_scop l -> osl_scop_equal l l = Ok true.
Proof.
  induction 1 as [|s l (H1 & H2 & H3 & [H4 H4'] & H5) H IH]; intros S; [reflexivity|]. inversion S as [|? ? (S0 & S1 & S2 & S3) S']; subst. specialize (IH S').
  cbn [osl_scop_equal]. rewrite Z.eqb_refl. cbn [negb]. destruct (sc_language s) as [w|]; [|easy]. cbn [strcmp_eq bind]. rewrite str_eqb_refl. cbn [negb].
  rewrite union_self by assumption. cbn [bind negb]. rewrite generics_self_ok by assumption. cbn [bind negb].
  rewrite statements_self by assumption. cbn [bind negb].
  assert (osl_interface_equal (hd_error (sc_registry s)) (hd_error (sc_registry s)) = Ok true) as ->.
  { destruct (sc_registry s) as [|[[u|] k] r]; [reflexivity| |apply Forall_cons_iff in H4' as [X _]; now destruct X].
    cbn [hd_error osl_interface_equal if_uri if_kind strcmp_eq bind]. now rewrite str_eqb_refl, kind_eqb_refl. }
  cbn [bind negb]. rewrite generics_self_ok by assumption. exact IH.
Qed.
End CLONE_PROOFS.

(** ** C44 *)
(** The clone function of every interface copies clonable data, and accepts the copy as equal. *)
Theorem C44_data : forall (cfg : config) (k : kind) (d : edata),
  config_ok cfg -> clonable cfg k d ->
  data_clone k d = Ok (Some d) /\ (self_comparable d -> data_equal k d (Some d) = Ok true).
Proof. intros cfg k d Hc H. split; [now apply clone_all|]. intros S. now apply (self_all Hc). Qed.
Print Assumptions C44_data.

(** Lists of extensions and of symbols: the copy, complete or of the first [n] nodes, has the same content in the same
    order (a negative [n] means all of them for extensions, -1 for symbols). *)
Theorem C44_extensions : forall (cfg : config) (l : list generic) (n : Z),
  config_ok cfg -> clonable_generics cfg l ->
  osl_generic_clone l = Ok l /\ (0 <= n -> osl_generic_nclone l n = Ok (firstn (Z.to_nat n) l)) /\
  (Forall self_comparable_generic l -> osl_generic_equal l l = Ok true).
Proof.
  intros cfg l n Hc H. split; [now apply generic_clone_ok|]. split; [|now apply generics_self_ok].
  intros Hn. rewrite generics_clone_ok by assumption. destruct (Z.ltb_spec n 0); [lia|reflexivity].
Qed.
Print Assumptions C44_extensions.
Theorem C44_symbols : forall (cfg : config) (l : list symbol) (n : Z),
  config_ok cfg -> Forall (clonable_symbol cfg) l ->
  osl_symbols_clone l = Ok l /\ (0 <= n -> osl_symbols_nclone l n = Ok (firstn (Z.to_nat n) l)) /\
  osl_symbols_get_nb_symbols l = Z.of_nat (List.length l).
Proof.
  intros cfg l n Hc H. assert (F : Forall (fun x => symbol_clone x = Ok x) l) by (eapply Forall_impl; [|exact H]; now apply clone_all).
  split; [|split].
  - unfold osl_symbols_clone, osl_symbols_nclone. now rewrite symbols_nclone_ok by (auto; lia).
  - intros Hn. unfold osl_symbols_nclone. rewrite symbols_nclone_ok by (auto; lia). destruct (Z.eqb_spec n (-1)); [lia|]. now rewrite Z.sub_0_r.
  - unfold osl_symbols_get_nb_symbols. assert (G : forall (l : list symbol) m, symbols_count l m = m + Z.of_nat (List.length l)); [|apply G].
    clear. induction l as [|x l IH]; intros m; cbn [symbols_count List.length]; [lia|]. rewrite IH. lia.
Qed.
Print Assumptions C44_symbols.
Theorem C44_interfaces : forall (l : list interf) (n : Z), clonable_interfaces l ->
  osl_interface_clone l = Ok l /\ (0 <= n -> osl_interface_nclone l n = Ok (firstn (Z.to_nat n) l)) /\
  osl_interface_number l = Z.of_nat (List.length l).
Proof.
  intros l n H. split; [now apply interface_clone_ok|]. split; [|reflexivity]. destruct H as [Hn Hu]. intros Hp.
  unfold osl_interface_nclone. rewrite interface_nclone_ok by (auto; lia). destruct (Z.eqb_spec n (-1)); [lia|]. now rewrite Z.sub_0_r.
Qed.
Print Assumptions C44_interfaces.

(** Statements and scops: the copy has the same content, and the library says that it is equal to the original. *)
Theorem C44_statements : forall (cfg : config) (l : list statement) (n : Z),
  config_ok cfg -> Forall (clonable_statement cfg) l ->
  osl_statement_clone l = Ok l /\ (0 <= n -> osl_statement_nclone l n = Ok (firstn (Z.to_nat n) l)) /\
  (Forall (fun s => Forall self_comparable_generic (st_ext s)) l -> osl_statement_equal l l = Ok true).
Proof.
  intros cfg l n Hc H. split; [|split].
  - unfold osl_statement_clone, osl_statement_nclone. now rewrite statement_nclone_ok by (auto; lia).
  - intros Hn. unfold osl_statement_nclone. rewrite statement_nclone_ok by (auto; lia). destruct (Z.eqb_spec n (-1)); [lia|]. now rewrite Z.sub_0_r.
  - now apply statements_self.
Qed.
Print Assumptions C44_statements.
Theorem C44_scops : forall (cfg : config) (l : list scop),
  config_ok cfg -> Forall (clonable_scop cfg) l ->
  exists copy, osl_scop_clone l = Ok copy /\ copy = l /\ osl_scop_number copy = Z.of_nat (List.length l) /\
    (Forall self_comparable_scop l -> osl_scop_equal l copy = Ok true).
Proof.
  intros cfg l Hc H. exists l. split; [now apply scop_clone_ok|]. split; [reflexivity|]. split; [|now apply scops_self].
  unfold osl_scop_number. assert (G : forall (l : list scop) m, scops_count l m = m + Z.of_nat (List.length l)); [|apply G].
  clear. induction l as [|x l IH]; intros m; cbn [scops_count List.length]; [lia|]. rewrite IH. lia.
Qed.
Print Assumptions C44_scops.

(** Names: every list of names is copied. *)
Theorem C44_names : forall n, has_array (n_params n) -> has_array (n_iters n) -> has_array (n_scatt n) -> has_array (n_locals n) ->
  has_array (n_arrays n) -> osl_names_clone (Some n) = Some n /\ osl_names_clone None = None.
Proof.
  intros [a b c d e] Ha Hb Hcc Hd He. split; [|reflexivity]. cbn [n_params n_iters n_scatt n_locals n_arrays] in *.
  unfold osl_names_clone. cbn [n_params n_iters n_scatt n_locals n_arrays]. now rewrite !strings_clone_same.
Qed.
Print Assumptions C44_names.

(** *** Where it fails *)
(** Two extensions with one URI (which a scop may carry, C40): cloning stops the program. *)
Theorem C44_duplicate_refuted : exists l, Forall (clonable_generic lp64_debug) l /\ @osl_generic_clone lp64_debug l = Err.
Proof.
  exists [Generic (Some (osl_interface_of KNull)) (Some DNull); Generic (Some (osl_interface_of KNull)) (Some DNull)].
  split; [repeat constructor|reflexivity].
Qed.
Print Assumptions C44_duplicate_refuted.
(** An extension without interface is dropped from the copy, which is then not equal to the original. *)
Theorem C44_no_interface_refuted : exists l copy, @osl_generic_clone lp64_debug l = Ok copy /\
  List.length copy <> List.length l /\ osl_generic_equal (cfg := lp64_debug) l copy = Ok false.
Proof. exists [Generic None None], []. repeat split; try reflexivity. discriminate. Qed.
Print Assumptions C44_no_interface_refuted.
(** An annotation extension without data cannot be cloned (NULL is dereferenced), nor one with a NULL line. *)
Theorem C44_annotation_refuted :
  @osl_generic_clone lp64_debug [Generic (Some (osl_interface_of KAnnotation)) None] = UB /\
  @data_clone lp64_debug KAnnotation (DAnnotation (Annotation [(1, None)] [])) = UB.
Proof. split; reflexivity. Qed.
Print Assumptions C44_annotation_refuted.
(** Regions: a copy is made, but it cannot be compared with the original. *)
Theorem C44_region_refuted : exists d, clonable lp64_debug KRegion d /\ @data_clone lp64_debug KRegion d = Ok (Some d) /\
  @data_equal lp64_debug KRegion d (Some d) = UB.
Proof.
  exists (DRegion [Region 1 [(1, Some (lit "a"))] [] [] []]). split; [|split; reflexivity]. cbn. split; [discriminate|].
  constructor; [|constructor]. repeat split; repeat constructor. discriminate.
Qed.
Print Assumptions C44_region_refuted.

(** A scop with a statement, a body and symbols. *)
Definition sample_symbols : edata := DSymbols [Symbol 1 0 1
  [Generic (Some (osl_interface_of KStrings)) (Some (DStrings (Some [lit "i"])))] []
  [Generic (Some (osl_interface_of KRelation)) (Some (DRelation [ex_domain]))]
  [Generic (Some (osl_interface_of KComment)) (Some (DComment (Some (lit "c"))));
   Generic (Some (osl_interface_of KNull)) None]].
Definition sample_scop : scop :=
  Scop 1 (Some (lit "C")) (sc_context ex_scop) [Generic (Some (osl_interface_of KStrings)) (Some (DStrings (Some [lit "N"])))]
    [Statement [ex_domain] [ex_scattering] [[ex_read]] [Generic (Some (osl_interface_of KBody)) (Some (DBody (Body (Some (Some [lit "i"])) (Some (Some [lit "x = 1;"])))))]]
    default_registry [Generic (Some (osl_interface_of KSymbols)) (Some sample_symbols);
                      Generic (Some (osl_interface_of KArrays)) (Some (DArrays [(1, lit "A")]))].
Lemma nodup_lit {A} (eqb : A -> A -> bool) (Heqb : forall a b, eqb a b = false -> a <> b) l :
  forallb (fun i => forallb (fun j => (i =? j)%nat || match nth_error l i, nth_error l j with Some a, Some b => negb (eqb a b) | _, _ => true end)
     (seq 0 (List.length l))) (seq 0 (List.length l)) = true -> NoDup l.
Proof.
  intros H. apply NoDup_nth_error. intros i j Hi E. rewrite forallb_forall in H.
  assert (Hj : (j < List.length l)%nat) by (apply nth_error_Some; rewrite <- E; now apply nth_error_Some).
  specialize (H i ltac:(apply in_seq; lia)). rewrite forallb_forall in H. specialize (H j ltac:(apply in_seq; lia)).
  apply orb_true_iff in H as [H|H]; [now apply Nat.eqb_eq|]. rewrite E in H. destruct (nth_error l j) as [b|] eqn:Ej; [|apply nth_error_None in Ej; lia].
  destruct (eqb b b) eqn:Eb; [discriminate|]. exfalso. now apply (Heqb b b).
Qed.
Definition uri_eqb (a b : option str) : bool := match a, b with Some a, Some b => str_eqb a b | None, None => true | _, _ => false end.
Lemma uri_eqb_neq a b : uri_eqb a b = false -> a <> b.
Proof. intros H E. subst. destruct b as [b|]; cbn in H; [rewrite str_eqb_refl in H|]; discriminate. Qed.
Example C44_witness : clonable_scop lp64_debug sample_scop /\ self_comparable_scop sample_scop /\
  @osl_scop_clone lp64_debug [sample_scop; sample_scop] = Ok [sample_scop; sample_scop] /\
  @osl_scop_equal lp64_debug [sample_scop] [sample_scop] = Ok true.
Proof.
  assert (W : forall r, In r [ex_context; ex_domain; ex_scattering; ex_read] -> wf_rel lp64_debug r).
  { intros r Hr. cbn in Hr. repeat (destruct Hr as [<-|Hr]); try destruct Hr; unfold wf_rel; cbn [rtype rprec nrows ncols nout nin nloc npar rm ex_context ex_domain ex_scattering ex_read]; wf_lit. }
  assert (D : forall l : list generic, forallb (fun i => forallb (fun j => (i =? j)%nat || match nth_error (map g_uri l) i, nth_error (map g_uri l) j with Some a, Some b => negb (uri_eqb a b) | _, _ => true end)
     (seq 0 (List.length (map g_uri l)))) (seq 0 (List.length (map g_uri l))) = true -> NoDup (map g_uri l)) by (intros l; apply nodup_lit, uri_eqb_neq).
  assert (WC : clonable_scop lp64_debug sample_scop).
  { assert (W1 : forall r, In r [ex_context; ex_domain; ex_scattering; ex_read] -> Forall (wf_rel lp64_debug) [r]) by (intros; constructor; [now apply W|constructor]).
    split; [apply W1; cbn; tauto|]. split; [split; [constructor; [cbn; unfold has_array; discriminate|constructor]|apply D; reflexivity]|]. split; [|split].
    - constructor; [|constructor]. split; [apply W1; cbn; tauto|]. split; [apply W1; cbn; tauto|].
      split; [constructor; [apply W1; cbn; tauto|constructor]|]. split; [|apply D; reflexivity]. constructor; [cbn; unfold has_array; split; discriminate|constructor].
    - split; [apply (nodup_lit uri_eqb uri_eqb_neq); vm_compute; reflexivity|]. repeat constructor; discriminate.
    - split; [|apply D; reflexivity]. constructor; [|constructor; [exact I|constructor]].
      cbn. unfold has_array. split; [discriminate|]. split; [|exact I]. split; [split; [split; [discriminate|exact I]|repeat constructor; intros []]|].
      split; [split; [exact I|constructor]|]. split.
      + split; [|repeat constructor; intros []]. split; [|exact I]. split; [discriminate|]. apply W1; cbn; tauto.
      + split; [split; [exact I|split; [discriminate|exact I]]|]. apply (nodup_lit uri_eqb uri_eqb_neq). reflexivity. }
  assert (SC : self_comparable_scop sample_scop).
  { split; [discriminate|]. split; [repeat constructor|]. split; [repeat constructor|]. constructor; [|repeat constructor].
    cbn. repeat split; discriminate. }
  destruct (C44_scops lp64_debug [sample_scop] (or_intror eq_refl)) as (c & E & -> & _ & Hq); [now constructor|].
  split; [exact WC|]. split; [exact SC|]. split; [vm_compute; reflexivity|]. apply Hq. now constructor.
Qed.
