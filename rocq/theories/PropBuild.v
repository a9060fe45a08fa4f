(** * Property C47: lists and texts built by any sequence of additions; counters; accessors of statements and scops *)
From Verif Require Import Base LoopLemmas IntModel VectorModel RelationModel UtilModel StringsModel RelTextModel Spec RelSpec
  PropRelation ExtModel ExtSpec PropExt ScopModel ScopSpec PropScop CloneModel CloneSpec PropExpr.

(** ** Texts of annotations and regions *)
(** One addition: the text it goes to, the type of the line, the line. *)
Inductive place := Prefix | Suffix | Prelude | Postlude.
Definition addition := (place * (Z * option str))%type.
Definition same_place (a b : place) : bool :=
  match a, b with Prefix, Prefix | Suffix, Suffix | Prelude, Prelude | Postlude, Postlude => true | _, _ => false end.
(** The lines sent to one place, in order. *)
Definition sent (p : place) (h : list addition) : text_lines := map snd (filter (fun a => same_place p (fst a)) h).

(** The library call of one addition. *)
Definition add_to_region (r : region) (a : addition) : region :=
  let '(p, (type, line)) := a in
  match p with
  | Prefix => osl_region_append_prefix r type line
  | Suffix => osl_region_append_suffix r type line
  | Prelude => osl_region_append_prelude r type line
  | Postlude => osl_region_append_postlude r type line
  end.
Definition add_to_annotation (x : annotation) (a : addition) : annotation :=
  let '(p, (type, line)) := a in
  match p with Prefix => osl_annotation_append_prefix x type line | _ => osl_annotation_append_suffix x type line end.

Theorem C47_region_texts : forall (h : list addition) (r : region),
  fold_left add_to_region h r =
  Region (re_location r) (re_prefix r ++ sent Prefix h) (re_suffix r ++ sent Suffix h)
         (re_prelude r ++ sent Prelude h) (re_postlude r ++ sent Postlude h).
Proof.
  induction h as [|[p [t l]] h IH]; intros r; cbn [fold_left].
  - unfold sent. cbn. rewrite !app_nil_r. now destruct r.
  - rewrite IH. unfold sent, add_to_region, osl_region_append_prefix, osl_region_append_suffix, osl_region_append_prelude,
      osl_region_append_postlude, text_append. destruct p; cbn; now rewrite <- app_assoc.
Qed.
Print Assumptions C47_region_texts.
Theorem C47_region_new : forall (h : list addition),
  fold_left add_to_region h osl_region_malloc = Region 0 (sent Prefix h) (sent Suffix h) (sent Prelude h) (sent Postlude h).
Proof. intros h. rewrite C47_region_texts. reflexivity. Qed.
Print Assumptions C47_region_new.
(** An annotation has a prefix and a suffix only. *)
Theorem C47_annotation_texts : forall (h : list addition) (x : annotation),
  (forall a, In a h -> fst a = Prefix \/ fst a = Suffix) ->
  fold_left add_to_annotation h x = Annotation (an_prefix x ++ sent Prefix h) (an_suffix x ++ sent Suffix h).
Proof.
  induction h as [|[p [t l]] h IH]; intros x H; cbn [fold_left].
  - unfold sent. cbn. rewrite !app_nil_r. now destruct x.
  - rewrite IH by (intros a Ha; apply H; now right). destruct (H _ (or_introl eq_refl)) as [E|E]; cbn in E; subst p;
      unfold sent, add_to_annotation, osl_annotation_append_prefix, osl_annotation_append_suffix, text_append; cbn; now rewrite <- app_assoc.
Qed.
Print Assumptions C47_annotation_texts.
Theorem C47_annotation_new : forall (h : list addition), (forall a, In a h -> fst a = Prefix \/ fst a = Suffix) ->
  fold_left add_to_annotation h osl_annotation_malloc = Annotation (sent Prefix h) (sent Suffix h).
Proof. intros h H. now rewrite C47_annotation_texts. Qed.
Print Assumptions C47_annotation_new.
Example C47_texts_witness :
  fold_left add_to_region [(Suffix, (1, Some (lit "}"))); (Prefix, (2, Some (lit "omp for"))); (Suffix, (1, Some (lit "end")))] osl_region_malloc =
  Region 0 [(2, Some (lit "omp for"))] [(1, Some (lit "}")); (1, Some (lit "end"))] [] [].
Proof. reflexivity. Qed.

(** ** Accesses of an extended body, unroll directives *)
Theorem C47_extbody : forall (h : list (Z * Z)) (e : extbody),
  fold_left (fun e a => osl_extbody_add e (fst a) (snd a)) h e = Extbody (eb_access e ++ h) (eb_body e).
Proof.
  induction h as [|[s l] h IH]; intros e; cbn [fold_left].
  - rewrite app_nil_r. now destruct e.
  - rewrite IH. unfold osl_extbody_add. cbn. now rewrite <- app_assoc.
Qed.
Print Assumptions C47_extbody.
Theorem C47_extbody_new : forall (h : list (Z * Z)),
  fold_left (fun e a => osl_extbody_add e (fst a) (snd a)) h osl_extbody_malloc = Extbody h None.
Proof. intros h. now rewrite C47_extbody. Qed.
Print Assumptions C47_extbody_new.

Theorem C47_unroll_fill : forall u iter jam factor,
  osl_pluto_unroll_fill u (Some iter) jam factor = Unroll (Some iter) jam factor /\
  osl_pluto_unroll_fill u None jam factor = Unroll (un_iter u) jam factor.
Proof. now intros. Qed.
Print Assumptions C47_unroll_fill.

(** ** Lists: whatever the sequence of additions, the concatenation of what was added, in order *)
Theorem C47_loops : forall (h : list (list loop)) (l : list loop),
  fold_left (fun ll new => osl_loop_add new ll) h l = l ++ concat h /\ osl_loop_count l = Z.of_nat (List.length l).
Proof.
  intros h l. split; [|reflexivity]. revert l. induction h as [|x h IH]; intros l; cbn; [now rewrite app_nil_r|]. rewrite IH. unfold osl_loop_add. now rewrite app_assoc.
Qed.
Print Assumptions C47_loops.
Theorem C47_symbols : forall (h : list (list symbol)) (l : list symbol),
  fold_left osl_symbols_add h l = l ++ concat h /\ osl_symbols_get_nb_symbols l = Z.of_nat (List.length l).
Proof.
  intros h l. split.
  - revert l. induction h as [|x h IH]; intros l; cbn; [now rewrite app_nil_r|]. rewrite IH. unfold osl_symbols_add. now rewrite app_assoc.
  - unfold osl_symbols_get_nb_symbols. assert (G : forall (l : list symbol) n, symbols_count l n = n + Z.of_nat (List.length l)).
    { clear. induction l as [|x l IH]; intros n; cbn [symbols_count List.length]; [lia|]. rewrite IH. lia. }
    now rewrite G.
Qed.
Print Assumptions C47_symbols.
Theorem C47_scops : forall (h : list (list scop)) (l : list scop),
  fold_left osl_scop_add h l = l ++ concat h /\ osl_scop_number l = Z.of_nat (List.length l).
Proof.
  intros h l. split.
  - revert l. induction h as [|x h IH]; intros l; cbn; [now rewrite app_nil_r|]. rewrite IH. unfold osl_scop_add. now rewrite app_assoc.
  - unfold osl_scop_number. assert (G : forall (l : list scop) n, scops_count l n = n + Z.of_nat (List.length l)).
    { clear. induction l as [|x l IH]; intros n; cbn [scops_count List.length]; [lia|]. rewrite IH. lia. }
    now rewrite G.
Qed.
Print Assumptions C47_scops.
Theorem C47_regions_count : forall (l : list region), osl_region_count l = Z.of_nat (List.length l).
Proof.
  intros l. unfold osl_region_count. assert (G : forall (l : list region) n, regions_count l n = n + Z.of_nat (List.length l)).
  { clear. induction l as [|x l IH]; intros n; cbn [regions_count List.length]; [lia|]. rewrite IH. lia. }
  now rewrite G.
Qed.
Print Assumptions C47_regions_count.

(** ** Dependences: a list under construction and a cursor on its last element *)
Definition add_dependences (x : list dependence * Z) (d : list dependence) : list dependence * Z :=
  osl_dependence_add (fst x) (snd x) d.
(** Both variables start as NULL. *)
Theorem C47_dependences : forall (h : list (list dependence)) (now : Z),
  exists last, fold_left add_dependences h ([], now) = (concat h, last) /\
    (concat h <> [] -> last = Z.of_nat (List.length (concat h)) - 1) /\
    osl_nb_dependences (concat h) = Z.of_nat (List.length (concat h)).
Proof.
  intros h now.
  assert (G : forall h s n, (s <> [] -> n = Z.of_nat (List.length s) - 1) -> exists last, fold_left add_dependences h (s, n) = (s ++ concat h, last) /\
    (s ++ concat h <> [] -> last = Z.of_nat (List.length (s ++ concat h)) - 1)).
  { clear. induction h as [|d h IH]; intros s n H; cbn [fold_left concat].
    - rewrite app_nil_r. now exists n.
    - rewrite app_assoc. unfold add_dependences at 2. cbn [fst snd]. unfold osl_dependence_add. destruct d as [|x d].
      + rewrite app_nil_r. now apply IH.
      + destruct s as [|y s].
        * apply IH. intros _. unfold zlength. cbn [app]. reflexivity.
        * specialize (H ltac:(discriminate)).
          replace (Z.to_nat (n + 1)) with (List.length (y :: s)) by (cbn [List.length] in *; lia). rewrite firstn_all. apply IH.
          intros _. unfold zlength. rewrite app_length. lia. }
  destruct (G h [] now ltac:(easy)) as (last & E & L). exists last. rewrite E. cbn [app] in L |- *. split; [reflexivity|]. split; [exact L|].
  unfold osl_nb_dependences.
  assert (C : forall l n, dependences_count l n = n + Z.of_nat (List.length l)).
  { clear. induction l as [|x l IH]; intros n; cbn [dependences_count List.length]; [lia|]. rewrite IH. lia. }
  now rewrite C.
Qed.
Print Assumptions C47_dependences.
(** A cursor that is not on the last element loses the dependences that follow it. *)
Theorem C47_dependence_cursor_refuted : exists (start new : list dependence) (now : Z),
  0 <= now < Z.of_nat (List.length start) /\ fst (osl_dependence_add start now new) <> start ++ new.
Proof.
  pose (d i := Dependence i 0 0 0 0 0 [] []).
  exists [d 1; d 2], [d 3], 0. split; [cbn; lia|]. cbn. discriminate.
Qed.
Print Assumptions C47_dependence_cursor_refuted.
Example C47_dependences_witness : let d i := Dependence i 0 0 0 0 0 [] [] in
  fold_left add_dependences [[d 1]; []; [d 2; d 3]] ([], 0) = ([d 1; d 2; d 3], 2).
Proof. reflexivity. Qed.

(** ** Accessors *)
(** The body of a statement: its "body" extension or, without one, the body inside its "extbody" extension. *)
Definition is_body (l : list generic) (b : body) : Prop :=
  carries l (lit "body") (DBody b) \/
  (~ (exists d, carries l (lit "body") d) /\ exists e, carries l (lit "extbody") (DExtbody e) /\ eb_body e = Some b).
Definition typed (l : list generic) : Prop :=
  (forall d, carries l (lit "body") d -> exists b, d = DBody b) /\
  (forall d, carries l (lit "extbody") d -> exists e, d = DExtbody e).
(** No extension of that URI comes without data. *)
Theorem C47_get_body : forall (s : statement), typed (st_ext s) ->
  exists o, osl_statement_get_body (Some s) = Ok o /\ (forall b, o = Some b <-> is_body (st_ext s) b).
Proof.
  intros s [T1 T2]. unfold osl_statement_get_body, body_of. change (uri_of KBody) with (lit "body"). change (uri_of KExtbody) with (lit "extbody").
  destruct (osl_generic_lookup (st_ext s) (lit "body")) as [d|] eqn:L.
  - pose proof (lookup_carries _ _ _ L) as C. destruct (T1 _ C) as [b ->]. cbn [bind]. exists (Some b). split; [reflexivity|].
    intros b'. split.
    + intros E. apply Some_inj in E. subst b'. now left.
    + intros [C'|[N _]]; [|now destruct N; exists (DBody b)]. apply carries_lookup in C'. rewrite L in C'.
      apply Some_inj in C'. assert (b = b') by congruence. now subst.
  - assert (N : ~ (exists d, carries (st_ext s) (lit "body") d)). { intros [d C]. apply carries_lookup in C. congruence. }
    cbn [bind]. destruct (osl_generic_lookup (st_ext s) (lit "extbody")) as [d|] eqn:L2.
    + pose proof (lookup_carries _ _ _ L2) as C. destruct (T2 _ C) as [e ->]. exists (eb_body e). split; [reflexivity|].
      intros b. split; [intros E; right; split; [exact N|]; now exists e|].
      intros [C'|[_ (e' & C' & E)]]; [destruct N; now exists (DBody b)|]. apply carries_lookup in C'. rewrite L2 in C'.
      apply Some_inj in C'. assert (e = e') by congruence. now subst.
    + exists None. split; [reflexivity|]. intros b. split; [discriminate|]. intros [C'|[_ (e & C' & _)]].
      * destruct N. now exists (DBody b).
      * apply carries_lookup in C'. congruence.
Qed.
Print Assumptions C47_get_body.
Theorem C47_get_body_null : osl_statement_get_body None = Ok None.
Proof. reflexivity. Qed.
Print Assumptions C47_get_body_null.

Lemma coherent_inputs u t n p r : n <> -1 -> coherent u t (-1) n p -> In r u -> nin r = n.
Proof.
  intros Hn C Hr. destruct u as [|f u]; [destruct Hr|]. destruct (C _ _ eq_refl) as (_ & _ & _ & _ & _ & _ & _ & _ & M & _ & F & _).
  rewrite Forall_forall in F. destruct (F _ Hr) as (_ & E & _). rewrite E. destruct M as [M|M]; [now destruct Hn|congruence].
Qed.
Lemma coherent_parameters u t n p r : p <> -1 -> coherent u t (-1) n p -> In r u -> npar r = p.
Proof.
  intros Hn C Hr. destruct u as [|f u]; [destruct Hr|]. destruct (C _ _ eq_refl) as (_ & _ & _ & _ & _ & _ & _ & _ & _ & M & F & _).
  rewrite Forall_forall in F. destruct (F _ Hr) as (_ & _ & E & _). rewrite E. destruct M as [M|M]; [now destruct Hn|congruence].
Qed.
(** In a coherent statement the number of iterators announced is that of every relation of the statement and of its body. *)
Theorem C47_nb_iterators : forall (nb_parameters : Z) (s : statement),
  coherent_statement nb_parameters s -> st_domain s <> [] ->
  let n := osl_statement_get_nb_iterators s in
  (forall r, In r (st_domain s) -> nout r = n) /\
  (forall r, In r (st_scattering s) -> nin r = n) /\
  (forall u r, In u (st_access s) -> In r u -> nin r = n) /\
  (forall its e, carries (st_ext s) (lit "body") (DBody (Body (Some its) e)) -> Z.of_nat (List.length (elems its)) = n).
Proof.
  intros np s (D & C & A & B) Hd n. unfold osl_statement_get_nb_iterators in n. destruct (st_domain s) as [|d ds] eqn:Ed; [easy|].
  cbn [announced] in C, A, B. subst n. destruct (D _ _ eq_refl) as (_ & Nd & _ & _ & _ & _ & _ & _ & _ & _ & F & _).
  split; [|split; [|split]].
  - intros r Hr. rewrite Forall_forall in F. now apply F.
  - intros r Hr. apply (coherent_inputs _ _ _ _ r Nd C Hr).
  - intros u r Hu Hr. rewrite Forall_forall in A. apply (coherent_inputs _ _ _ _ r Nd (A _ Hu) Hr).
  - intros its e Hb. now apply (B its e).
Qed.
Print Assumptions C47_nb_iterators.
Theorem C47_nb_parameters : forall (s : scop), coherent_scop s -> sc_context s <> [] ->
  let n := osl_scop_get_nb_parameters s in
  forall u r, In u (relations_of_scop s) -> In r u -> npar r = n.
Proof.
  intros s (C & F) Hc n u r. unfold osl_scop_get_nb_parameters in n. unfold relations_of_scop. destruct (sc_context s) as [|c cs] eqn:Ec; [easy|].
  cbn [announced] in F. subst n. destruct (C _ _ eq_refl) as (_ & _ & _ & _ & Np & _ & _ & _ & _ & _ & Fc & _).
  intros [<-|Hu] Hr; [rewrite Forall_forall in Fc; now apply Fc|].
  unfold relations_of_statements in Hu. apply in_flat_map in Hu as (st & Hs & Hu). rewrite Forall_forall in F. destruct (F _ Hs) as (D & S & A & _).
  destruct Hu as [<-|[<-|Hu]]; [apply (coherent_parameters _ _ _ _ r Np D Hr)|apply (coherent_parameters _ _ _ _ r Np S Hr)|].
  rewrite Forall_forall in A. apply (coherent_parameters _ _ _ _ r Np (A _ Hu) Hr).
Qed.
Print Assumptions C47_nb_parameters.
(** The functions on the checked scop of C36. *)
Example C47_accessors_witness : coherent_scop ex_scop /\ sc_context ex_scop <> [] /\ osl_scop_get_nb_parameters ex_scop = 1 /\
  map osl_statement_get_nb_iterators (sc_stmts ex_scop) = [1; 1] /\ Forall (fun s => typed (st_ext s)) (sc_stmts ex_scop) /\
  map (fun s => osl_statement_get_body (Some s)) (sc_stmts ex_scop) = [Ok (Some ex_body); Ok None].
Proof.
  destruct C36_witness_hypotheses as (W & S & B).
  assert (C : Forall coherent_scop [ex_scop]).
  { apply (C36_integrity_sound lp64_debug); [now right|reflexivity|exact W|apply Forall_cons; [exact S|apply Forall_nil]|apply C36_witness]. }
  split; [now inversion C|]. split; [discriminate|]. split; [reflexivity|]. split; [reflexivity|]. split; [|reflexivity].
  change (sc_stmts ex_scop) with ex_statements. unfold ex_statements.
  apply Forall_cons; [|apply Forall_cons; [|apply Forall_nil]]; cbn [st_ext].
  - split; intros d H; apply carries_lookup in H; [|discriminate]. cbn in H. injection H as <-. eauto.
  - split; intros d H; apply carries_lookup in H; discriminate.
Qed.
(** A statement with an extended body only. *)
Example C47_extbody_witness : let e := Extbody [(0, 4)] (Some ex_body) in
  osl_statement_get_body (Some (Statement [] [] [] [Generic (Some (osl_interface_of KExtbody)) (Some (DExtbody e))])) = Ok (Some ex_body).
Proof. reflexivity. Qed.
