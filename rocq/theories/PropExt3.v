(** * PropExt3: property C33 for loops, unrolling, plain texts and dependences *)
From Coq Require Import ZifyBool ZifyNat.
From Verif Require Import Base IntModel VectorModel RelationModel UtilModel StringsModel RelTextModel
  TextSpec Spec RelSpec LoopLemmas TextInt RelationProofs RelationProofs2 UtilProofs UtilProofs2 PropStrings RelTextProofs RelTextProofs2 RelTextProofs3 RelTextProofs4
  PropUtil PropRelText PropRelation ExtModel ExtSpec ExtProofs PropExt PropExt2.

(** ** Loops *)
Lemma user_testbit d : user_directive d = Z.testbit d 3.
Proof.
  unfold user_directive, LOOP_USER. change 8 with (2 ^ 3).
  destruct (Z.testbit d 3) eqn:E.
  - destruct (Z.eqb_spec (Z.land d (2 ^ 3)) 0) as [X|X]; [|reflexivity].
    assert (Y : Z.testbit (Z.land d (2 ^ 3)) 3 = false) by (rewrite X; apply Z.bits_0).
    rewrite Z.land_spec, E in Y. discriminate.
  - apply negb_false_iff, Z.eqb_eq. apply Z.bits_inj'. intros n Hn. rewrite Z.land_spec, Z.bits_0.
    destruct (Z.eq_dec n 3) as [->|Hne]; [now rewrite E|]. rewrite Z.pow2_bits_false by lia. apply andb_false_r.
Qed.
Definition null_line (n : nat) : (14 <= n)%nat -> line_string n (lit "(null)").
Proof. intros H. apply line_lit; [cbn; lia|reflexivity|reflexivity]. Qed.
Lemma opt_line n o : opt_line_ok n o -> (14 <= n)%nat -> line_string n (pr o) /\ null_if_null (pr o) = o.
Proof.
  destruct o as [x|]; cbn [opt_line_ok pr]; intros H Hn.
  - destruct H as [H1 H2]. split; [assumption|]. unfold null_if_null. destruct (str_eqb x (lit "(null)")) eqn:E; [|reflexivity].
    apply str_eqb_eq in E. congruence.
  - split; [now apply null_line|reflexivity].
Qed.
Lemma loop_item n l : loop_ok l -> exists t, loop_sprint_one n l = Ok t /\ item loop_sread_one l t.
Proof.
  destruct l as [it st pv d u]. intros ((i & Hi & Wi) & Hc & Hst & Hp & Hd & Hu).
  cbn [lo_iter lo_stmts lo_private lo_directive lo_user] in *. subst it.
  destruct (opt_line _ _ Hp ltac:(lia)) as [Lp Np]. pose proof Lp as (_ & _ & Lpl & _). pose proof Wi as (_ & Wil & _).
  unfold loop_sprint_one. cbn [lo_iter lo_stmts lo_private lo_directive lo_user pr].
  rewrite (store_ln 2046) by lia. rewrite (store_ln 2046 (pr pv)) by lia.
  rewrite (print_all_ok _ lnZ) by (apply Forall_forall; reflexivity). cbn [bind].
  rewrite user_testbit.
  assert (exists ut, (if Z.testbit d 3 then buf_store ([c_sp] ++ pr u) else Ok []) = Ok ut /\
    forall after g, blank_text g -> exists gap, blank_text gap /\
     ('(v, s) <- osl_util_read_int_s (g ++ print_Z d ++ ut ++ c_nl :: after) ;;
      '(w, s) <- (if user_directive v then '(w, s) <- osl_util_read_line_s s ;; Ok (null_if_null w, s) else Ok (None, s)) ;;
      Ok (v, w, s)) = Ok (d, u, gap ++ after)) as (ut & Hut & Hread).
  { destruct (Z.testbit d 3) eqn:B.
    - destruct (opt_line _ _ Hu ltac:(lia)) as [Lu Nu]. exists ([c_sp] ++ pr u). split.
      + pose proof Lu as (_ & _ & Lul & _). apply store_ok. cbn [app List.length]. lia.
      + intros after g Hg. reads. rewrite user_testbit, B. reads. rewrite Nu. gap [c_nl].
    - subst u. exists []. split; [reflexivity|]. intros after g Hg. cbn [app]. reads. rewrite user_testbit, B. cbn [bind]. gap [c_nl]. }
  rewrite Hut. cbn [bind]. eexists. split; [reflexivity|].
  intros before after Hb. unfold loop_sread_one.
  assert (B : blank_text (lit "# Loop number " ++ print_Z n ++ ln [c_sp])).
  { replace (lit "# Loop number " ++ print_Z n ++ ln [c_sp]) with (ln (c_hash :: lit " Loop number " ++ print_Z n ++ [c_sp]))
      by (unfold ln; cbn [app]; rewrite <- !app_assoc; reflexivity).
    apply blank_ln. repeat (apply no_nl_app; split); try apply print_Z_no_nl; apply no_nlb_ok; reflexivity. }
  rewrite <- !app_assoc. rewrite rd_str_blank by assumption. rewrite rd_str_blank by blk.
  match goal with |- context [lit "# Loop number " ++ print_Z n ++ ln [c_sp] ++ ?x] =>
    replace (lit "# Loop number " ++ print_Z n ++ ln [c_sp] ++ x)
    with ((lit "# Loop number " ++ print_Z n ++ ln [c_sp]) ++ x) by (rewrite <- !app_assoc; reflexivity) end.
  rewrite rd_str_blank by assumption. rewrite rd_str_blank by blk.
  rewrite (rd_ln_str 2046) by (assumption || lia). cbn [bind].
  rewrite rd_int_c by reflexivity. rewrite rd_int_blank by blk. rewrite rd_lnZ by now apply count_c_int. cbn [bind].
  rewrite count_neg, count_nat.
  match goal with |- context [c_nl :: ?h ++ concat _ ++ ?r] => set (hd := h); set (rest := r) end.
  assert (Hh : blank_text (c_nl :: hd)) by (subst hd; destruct (zlength st =? 0); blank).
  destruct (ints_ok st c_nl Hst ltac:(now apply Forall_forall) eq_refl (c_nl :: hd) rest Hh) as (g & Hg & E).
  rewrite flat_map_concat_map in E.
  match goal with |- context [read_ints ?a ?b] => replace (read_ints a b) with (Ok (st, g ++ rest)) by (symmetry; exact E) end.
  cbn [bind]. subst rest. rewrite rd_line_blank by assumption. rewrite rd_line_blank by blk.
  rewrite (rd_ln_line 2046) by (assumption || lia). cbn [bind].
  destruct (Hread after ([c_nl] ++ ln (lit "# Directive")) ltac:(blank; blank)) as (g' & Hg' & R).
  rewrite Np. exists g'. split; [assumption|].
  cbn [app] in R |- *.
  match type of R with ('(_, _) <- osl_util_read_int_s ?a ;; _) = _ =>
    match goal with |- ('(_, _) <- osl_util_read_int_s ?b ;; _) = _ => change b with a end end.
  match type of R with (_ <- ?r ;; _) = _ => destruct r as [[v s1]| | |]; cbn [bind] in R |- *; try discriminate end.
  match type of R with (_ <- ?r ;; _) = _ => destruct r as [[w s2]| | |]; cbn [bind] in R |- *; try discriminate end.
  injection R as -> -> ->. reflexivity.
Qed.
Lemma loops_print l : Forall loop_ok l -> forall n, exists ts,
  loops_sprint n l = Ok (concat ts) /\ Forall2 (item loop_sread_one) l ts.
Proof.
  induction 1 as [|r l Hr Hl IH]; intros n; cbn [loops_sprint].
  - exists []. split; [reflexivity|constructor].
  - destruct (loop_item n r Hr) as (t & Ht & Hi). destruct (IH (n + 1)) as (ts & E & F).
    exists (t :: ts). rewrite Ht, E. split; [reflexivity|]. constructor; assumption.
Qed.
Theorem C33_loop_roundtrip : forall l, count_ok l -> Forall loop_ok l ->
  roundtrip (osl_loop_sprint l) osl_loop_sread l.
Proof.
  intros l Hc H. destruct (loops_print l H 1) as (ts & E & F). eexists. split.
  - unfold osl_loop_sprint, osl_loop_count. rewrite E. cbn [bind]. reflexivity.
  - intros before after Hb. unfold osl_loop_sread. reads. rewrite count_neg, count_nat.
    apply (many_ok loop_sread_one loops_sread) with (before := [c_nl]) (ts := ts); try reflexivity; [assumption|blank].
Qed.
Print Assumptions C33_loop_roundtrip.
Example C33_loop_hyp : Forall loop_ok [Loop (Some (lit "i")) [1; 2] None 1 None; Loop (Some (lit "j")) [] (Some (lit "x, y")) 12 (Some (lit "omp simd"))].
Proof.
  constructor; [|constructor; [|constructor]]; (split; [eexists; split; [reflexivity|wlit]|]); (split; [reflexivity|]); split.
  - repeat constructor; cbv; discriminate.
  - split; [exact I|]. split; [cbv; split; discriminate|]. reflexivity.
  - constructor.
  - split; [split; [llit|discriminate]|]. split; [cbv; split; discriminate|].
    change (opt_line_ok 2046 (Some (lit "omp simd"))). split; [llit|discriminate].
Qed.
Example C33_loop_ex : exists t, osl_loop_sprint [Loop (Some (lit "i")) [1; 2] None 1 None; Loop (Some (lit "j")) [] (Some (lit "x, y")) 12 (Some (lit "omp simd"))] = Ok (Some t) /\
  osl_loop_sread t = Ok ([Loop (Some (lit "i")) [1; 2] None 1 None; Loop (Some (lit "j")) [] (Some (lit "x, y")) 12 (Some (lit "omp simd"))], [c_nl]).
Proof. eexists. split; [vm_compute; reflexivity|]. vm_compute. reflexivity. Qed.

(** Comparison: it accepts a list of loops against itself when all loops have a
    private list or none has, and the same for the user directive. *)
Definition uniform {A} (f : A -> option str) (l : list A) : Prop :=
  (forall x, In x l -> f x = None) \/ (forall x, In x l -> f x <> None).
Lemma strcmp_or_same_ok a b : (a = None /\ b = None) \/ (a <> None /\ b <> None) ->
  exists r, strcmp_or_same a b = Ok r /\ (r = true <-> a = b).
Proof.
  destruct a as [a|], b as [b|]; cbn; intros H; try (exfalso; destruct H as [[? ?]|[? ?]]; congruence).
  - eexists. split; [reflexivity|]. rewrite str_eqb_eq. split; [now intros ->|intros X; now injection X].
  - exists true. split; [reflexivity|tauto].
Qed.
Lemma loop_equal_one_ok x y : lo_iter x <> None -> lo_iter y <> None ->
  (lo_private x = None /\ lo_private y = None \/ lo_private x <> None /\ lo_private y <> None) ->
  (lo_user x = None /\ lo_user y = None \/ lo_user x <> None /\ lo_user y <> None) ->
  exists r, osl_loop_equal_one x y = Ok r /\
   (r = true <-> lo_iter x = lo_iter y /\ List.length (lo_stmts x) = List.length (lo_stmts y) /\ incl (lo_stmts x) (lo_stmts y) /\
      lo_private x = lo_private y /\ lo_directive x = lo_directive y /\ lo_user x = lo_user y).
Proof.
  destruct x as [i s p d u], y as [i' s' p' d' u']. cbn [lo_iter lo_stmts lo_private lo_directive lo_user].
  intros Hi Hi' Hp Hu. unfold osl_loop_equal_one. cbn [lo_iter lo_stmts lo_private lo_directive lo_user].
  destruct i as [i|]; [|congruence]. destruct i' as [i'|]; [|congruence].
  destruct (Z.eqb_spec (zlength s) (zlength s')) as [E|E]; unfold zlength in E; cbn [negb].
  2: { exists false. split; [reflexivity|]. split; [discriminate|]. intros (_ & X & _). lia. }
  cbn [strcmp_eq bind]. destruct (str_eqb i i') eqn:Ei; cbn [negb].
  2: { exists false. split; [reflexivity|]. split; [discriminate|]. intros (X & _). injection X as ->. rewrite str_eqb_refl in Ei. discriminate. }
  apply str_eqb_eq in Ei. subst i'. destruct (all_found Z.eqb s s') eqn:Ef; cbn [negb].
  2: { exists false. split; [reflexivity|]. split; [discriminate|]. intros (_ & _ & X & _).
       apply (all_found_iff _ Z.eqb_eq) in X. congruence. }
  apply (all_found_iff _ Z.eqb_eq) in Ef. destruct (strcmp_or_same_ok p p' Hp) as (r & -> & Hr). cbn [bind].
  destruct r; cbn [negb].
  2: { exists false. split; [reflexivity|]. split; [discriminate|]. intros (_ & _ & _ & X & _). now apply Hr. }
  destruct (Z.eqb_spec d d') as [->|Ed]; cbn [negb].
  2: { exists false. split; [reflexivity|]. split; [discriminate|]. tauto. }
  destruct (strcmp_or_same_ok u u' Hu) as (r & -> & Hr'). exists r. split; [reflexivity|]. rewrite Hr'.
  split; [|tauto]. intros ->. repeat split; try tauto; try lia.
Qed.
Theorem C33_loop_clone : forall l, osl_loop_clone l = Ok l.
Proof.
  induction l as [|[i s p d u] l IH]; [reflexivity|]. cbn [osl_loop_clone]. unfold osl_loop_clone_one. cbn [lo_stmts lo_iter lo_private lo_directive lo_user].
  rewrite copy_array_ok by reflexivity. cbn [bind]. rewrite IH. cbn [bind]. destruct i, p, u; reflexivity.
Qed.
Print Assumptions C33_loop_clone.
(** A list of loops (and so its clone) compares equal to another with the same content. *)
Theorem C33_loop_equal : forall l, (forall x, In x l -> lo_iter x <> None) -> uniform lo_private l -> uniform lo_user l ->
  osl_loop_equal l l = Ok true.
Proof.
  intros l Hi Hp Hu. unfold osl_loop_equal. destruct l as [|y l]; [reflexivity|]. rewrite Z.eqb_refl. cbn [negb].
  assert (G : forall a b, incl a (y :: l) -> incl b (y :: l) -> incl a b -> loops_found a b = Ok true); [|apply G; apply incl_refl].
  induction a as [|x a IH]; intros b Ha Hb Hab; [reflexivity|]. cbn [loops_found].
  assert (F : forall c, In x c -> incl c (y :: l) -> loop_found x c = Ok true).
  { induction c as [|z c IHc]; intros Hin Hc; [destruct Hin|]. cbn [loop_found].
    assert (Hx : In x (y :: l)) by (apply Ha; now left). assert (Hz : In z (y :: l)) by (apply Hc; now left).
    destruct (loop_equal_one_ok x z) as (r & E & Hr).
    - now apply Hi.
    - now apply Hi.
    - destruct Hp as [Hp|Hp]; [left|right]; auto.
    - destruct Hu as [Hu|Hu]; [left|right]; auto.
    - rewrite E. cbn [bind]. destruct r; [reflexivity|]. apply IHc; [|intros w Hw; apply Hc; now right].
      destruct Hin as [->|Hin]; [|assumption]. exfalso. apply diff_false_true. apply Hr. repeat split; auto. apply incl_refl. }
  rewrite F by (try assumption; apply Hab; now left). cbn [bind]. apply IH; [| assumption|]; intros w Hw; [apply Ha|apply Hab]; now right.
Qed.
Print Assumptions C33_loop_equal.
(** Two loops, one with a private list and one without: a clone cannot be compared with the original. *)
Theorem C33_loop_equal_refuted : exists l, Forall loop_ok l /\ osl_loop_equal l l = UB.
Proof.
  exists [Loop (Some (lit "i")) [1] None 0 None; Loop (Some (lit "i")) [1] (Some (lit "x")) 0 None]. split; [|reflexivity].
  constructor; [|constructor; [|constructor]]; (split; [eexists; split; [reflexivity|wlit]|]); (split; [reflexivity|]);
    (split; [repeat constructor; cbv; discriminate|]).
  - split; [exact I|]. split; [cbv; split; discriminate|reflexivity].
  - split; [split; [llit|discriminate]|]. split; [cbv; split; discriminate|reflexivity].
Qed.
Print Assumptions C33_loop_equal_refuted.
(** Different statement lists are accepted, in one direction. *)
Theorem C33_loop_subset_refuted : exists a b,
  osl_loop_equal [Loop (Some (lit "i")) a None 0 None] [Loop (Some (lit "i")) b None 0 None] = Ok true /\
  osl_loop_equal [Loop (Some (lit "i")) b None 0 None] [Loop (Some (lit "i")) a None 0 None] = Ok false.
Proof. exists [1; 1], [1; 2]. split; reflexivity. Qed.
Print Assumptions C33_loop_subset_refuted.
Theorem C33_extbody_subset_refuted : exists a b,
  osl_extbody_equal (Some (Extbody a None)) (Some (Extbody b None)) = true /\
  osl_extbody_equal (Some (Extbody b None)) (Some (Extbody a None)) = false.
Proof. exists [(1, 1); (1, 1)], [(1, 1); (2, 1)]. split; reflexivity. Qed.
Print Assumptions C33_extbody_subset_refuted.

(** ** Pluto unrolling *)
Lemma unrolls_ok l : Forall unroll_ok l -> l <> [] -> forall fuel before after, blank_text before ->
  (List.length l <= fuel)%nat ->
  exists gap, blank_text gap /\ unrolls_sread fuel (before ++ unrolls_text l ++ after) = Ok (l, gap ++ after).
Proof.
  induction 1 as [|[it j f] l ((i & Hi & Wi) & Hf) Hl IH]; intros Hne fuel before after Hb Hk; [congruence|].
  cbn [un_iter un_factor] in *. subst it. destruct fuel as [|k]; [cbn in Hk; lia|]. cbn [unrolls_sread unrolls_text un_iter un_jam un_factor pr].
  assert (Hf' : c_int f) by (unfold c_int; lia).
  assert (Hj' : c_int (if j then 1 else 0)) by (unfold c_int; destruct j; lia).
  assert (Hn' : c_int (match l with [] => 0 | _ => 1 end)) by (unfold c_int; destruct l; lia).
  reads. rewrite Z.mod_small by lia.
  replace (negb ((if j then 1 else 0) =? 0)) with j by (destruct j; reflexivity).
  destruct l as [|y l]; [gap [c_nl]|].
  change (1 =? 1) with true. cbv iota.
  destruct (IH ltac:(discriminate) k [c_nl] after blank_nl ltac:(cbn in *; lia)) as (g & Hg & E).
  cbn [app] in E. cbn [app]. 
  match goal with |- context [unrolls_sread k ?x] => replace (unrolls_sread k x) with (Ok (y :: l, g ++ after)) by (symmetry; exact E) end.
  cbn [bind]. gap g.
Qed.
Lemma unrolls_text_length l : (List.length l <= List.length (unrolls_text l))%nat.
Proof. induction l as [|u l IH]; cbn [unrolls_text List.length]; [lia|]. unfold ln at 1. rewrite !app_length. cbn. lia. Qed.
Theorem C33_pluto_unroll_roundtrip : forall l text, Forall unroll_ok l ->
  osl_pluto_unroll_sprint l = Ok (Some text) ->
  roundtrip (osl_pluto_unroll_sprint l) osl_pluto_unroll_sread l.
Proof.
  intros l text Hl Hp. exists text. split; [assumption|]. unfold osl_pluto_unroll_sprint in Hp. inv_bind Hp.
  injection Hp as ->. unfold buf_store in E. destruct (_ <? _) in E; [|discriminate]. apply Ok_inj in E. subst text.
  intros before after Hb. unfold osl_pluto_unroll_sread.
  assert (Hn' : c_int (match l with [] => 0 | _ => 1 end)) by (unfold c_int; destruct l; lia).
  reads. destruct l as [|u l].
  - change (0 =? 1) with false. cbv iota. cbn [unrolls_text app]. gap [c_nl].
  - change (1 =? 1) with true. cbv iota. remember (u :: l) as v.
    destruct (unrolls_ok v Hl ltac:(subst; discriminate) (S (List.length (c_nl :: unrolls_text v ++ after))) [c_nl] after blank_nl) as (g & Hg & E).
    + cbn [List.length]. rewrite app_length. pose proof (unrolls_text_length v). lia.
    + cbn [app] in E. rewrite E. gap g.
Qed.
Print Assumptions C33_pluto_unroll_roundtrip.
Theorem C33_pluto_unroll_equal : forall a b, osl_pluto_unroll_equal a b = true <-> a = b.
Proof.
  induction a as [|[i j f] a IH]; intros [|[i' j' f'] b]; cbn [osl_pluto_unroll_equal]; try (split; (reflexivity || discriminate)).
  unfold unroll_eqb. cbn [un_iter un_jam un_factor]. rewrite !andb_true_iff, IH, Z.eqb_eq, Bool.eqb_true_iff.
  assert (iter_eqb i i' = true <-> i = i') as ->.
  { destruct i, i'; cbn; try (split; (reflexivity || discriminate)). rewrite str_eqb_eq. split; [now intros ->|intros X; now injection X]. }
  split; [intros (((-> & ->) & ->) & ->); reflexivity|intros X; injection X; auto].
Qed.
Print Assumptions C33_pluto_unroll_equal.
Theorem C33_pluto_unroll_clone : forall l, osl_pluto_unroll_clone l = l.
Proof. induction l as [|[[i|] j f] l IH]; cbn; [reflexivity| |]; f_equal; exact IH. Qed.
Print Assumptions C33_pluto_unroll_clone.
Example C33_pluto_hyp : exists t, osl_pluto_unroll_sprint [Unroll (Some (lit "i")) true 4; Unroll (Some (lit "t2")) false 0] = Ok (Some t).
Proof. eexists. vm_compute. reflexivity. Qed.
(** An unroll factor of 2^31 or more (the field is unsigned) cannot be read back. *)
Theorem C33_pluto_factor_refuted : exists text,
  osl_pluto_unroll_sprint [Unroll (Some (lit "i")) true (2 ^ 31)] = Ok (Some text) /\ osl_pluto_unroll_sread text = UB.
Proof. eexists. split; [vm_compute; reflexivity|]. vm_compute. reflexivity. Qed.
Print Assumptions C33_pluto_factor_refuted.
(** A long list overflows the buffer. *)
Lemma unrolls_text_min l : (45 * List.length l <= List.length (unrolls_text l))%nat.
Proof.
  induction l as [|u l IH]; cbn [unrolls_text List.length]; [lia|]. unfold lnZ, ln. rewrite !app_length.
  pose proof (print_Z_nonempty (un_factor u)) as H. destruct (print_Z (un_factor u)); [congruence|].
  destruct (un_jam u), l; cbn in *; lia.
Qed.
Theorem C33_pluto_long_refuted : forall l, (46 <= List.length l)%nat -> osl_pluto_unroll_sprint l = UB.
Proof.
  intros l H. unfold osl_pluto_unroll_sprint, buf_store. pose proof (unrolls_text_min l) as M.
  match goal with |- context [zlength ?t <? MAX_STRING] => destruct (Z.ltb_spec (zlength t) MAX_STRING) as [X|X]; [|reflexivity] end.
  exfalso. unfold zlength, MAX_STRING in X. rewrite !app_length in X. lia.
Qed.
Print Assumptions C33_pluto_long_refuted.

(** ** Comments, textual extensions, clay scripts, the empty extension *)

(** A comment is printed as it is, and reading takes the whole text. *)
Theorem C33_comment_roundtrip : forall c, (List.length c < 2048)%nat ->
  osl_comment_sprint (Some (Some c)) = Ok (Some c) /\ osl_comment_sread c = Ok (Some c, c) /\
  osl_comment_clone (Some (Some c)) = Some (Some c) /\ osl_comment_equal (Some (Some c)) (Some (Some c)) = Ok true.
Proof.
  intros c H. split; [|split; [|split]].
  - cbn. now rewrite store_ok.
  - unfold osl_comment_sread. destruct (Z.ltb_spec MAX_STRING (zlength c)) as [X|_]; [unfold zlength, MAX_STRING in X; lia|reflexivity].
  - reflexivity.
  - reflexivity.
Qed.
Print Assumptions C33_comment_roundtrip.
(** Any two comments are equal; and the cursor is left where it was. *)
Theorem C33_comment_equal_refuted : forall a b, osl_comment_equal (Some (Some a)) (Some (Some b)) = Ok true.
Proof. reflexivity. Qed.
Print Assumptions C33_comment_equal_refuted.
Theorem C33_comment_long_refuted : forall c, (2048 <= List.length c)%nat -> osl_comment_sprint (Some (Some c)) = UB /\ osl_clay_sprint (Some (Some c)) = UB.
Proof.
  intros c H. split; cbn; unfold buf_store; (destruct (Z.ltb_spec (zlength c) MAX_STRING) as [X|_]; [unfold zlength, MAX_STRING in X; lia|reflexivity]).
Qed.
Print Assumptions C33_comment_long_refuted.

(** Clay: leading newlines apart. *)
Theorem C33_clay_roundtrip : forall before c, Forall (fun x => x = c_nl) before ->
  match c with x :: _ => x <> c_nl | [] => True end -> (List.length (before ++ c) < 2048)%nat ->
  osl_clay_sprint (Some (Some c)) = Ok (Some c) /\ osl_clay_sread (before ++ c) = Ok (Some c, before ++ c) /\
  osl_clay_clone (Some (Some c)) = Some (Some c) /\ osl_clay_equal (Some (Some c)) (Some (Some c)) = Ok true.
Proof.
  intros before c Hb Hc H. rewrite app_length in H. split; [|split; [|split; [reflexivity|]]].
  - cbn. rewrite store_ok by lia. reflexivity.
  - unfold osl_clay_sread. destruct (Z.ltb_spec MAX_STRING (zlength (before ++ c))) as [X|_]; [unfold zlength, MAX_STRING in X; rewrite app_length in X; lia|].
    rewrite span_exact; [reflexivity| |].
    + revert Hb. apply Forall_impl. intros a ->. apply ceqb_refl.
    + destruct c as [|x c]; [exact I|]. cbn. now apply ceqb_neq.
  - cbn. now rewrite str_eqb_refl.
Qed.
Print Assumptions C33_clay_roundtrip.
Theorem C33_clay_equal : forall a b, exists r, osl_clay_equal (Some (Some a)) (Some (Some b)) = Ok r /\ (r = true <-> a = b).
Proof. intros a b. eexists. split; [reflexivity|]. apply str_eqb_eq. Qed.
Print Assumptions C33_clay_equal.
Theorem C33_clay_newline_refuted : forall c, (List.length c < 2047)%nat -> osl_clay_sprint (Some (Some (c_nl :: c))) = Ok (Some (c_nl :: c)) /\
  exists c' s, osl_clay_sread (c_nl :: c) = Ok (Some c', s) /\ c' <> c_nl :: c.
Proof.
  intros c H. split; [cbn [osl_clay_sprint pr]; rewrite store_ok by (cbn; lia); reflexivity|]. unfold osl_clay_sread.
  destruct (Z.ltb_spec MAX_STRING (zlength (c_nl :: c))) as [X|_]; [unfold zlength, MAX_STRING in X; cbn [List.length] in X; lia|].
  eexists. eexists. split; [reflexivity|].
  intros E. pose proof (span_snd (fun c => ceqb c c_nl) (c_nl :: c)) as S. rewrite E in S. cbn in S. discriminate.
Qed.
Print Assumptions C33_clay_newline_refuted.

(** A textual extension is read but never printed, and any two are equal. *)
Theorem C33_textual_refuted : forall t a b, osl_textual_sread t = Ok (Some t, []) /\
  osl_textual_sprint (Some (Some t)) = Ok None /\ osl_textual_equal a b = true.
Proof. auto. Qed.
Print Assumptions C33_textual_refuted.
Theorem C33_null_roundtrip : forall s, osl_null_sprint (Some tt) = Ok (Some []) /\ osl_null_sread s = Ok (tt, s) /\
  osl_null_clone (Some tt) = Some tt /\ osl_null_equal (Some tt) (Some tt) = true.
Proof. auto. Qed.
Print Assumptions C33_null_roundtrip.

(** ** Dependences *)

(** A dependence that the format can carry: a known kind (-1 is undefined, 1 to 5
    the documented ones), C ints, and a domain made of one part. *)
Definition dependence_ok (cfg : config) (p : Z) (d : dependence) : Prop :=
  In (de_type d) [-1; 1; 2; 3; 4; 5] /\
  c_int (de_label_source d) /\ c_int (de_label_target d) /\ c_int (de_ref_source d) /\ c_int (de_ref_target d) /\
  c_int (de_depth d) /\ List.length (de_dims d) = 8%nat /\ Forall c_int (de_dims d) /\
  exists r t, de_domain d = [r] /\ printable_type t /\ savable cfg p t r.

Lemma rd_rel_blank (cfg : config) b s p : blank_text b -> osl_relation_psread (b ++ s) p = osl_relation_psread s p.
Proof. intros H. unfold osl_relation_psread, osl_relation_read_type_s. now rewrite rd_strings_blank || now rewrite rd_str_blank. Qed.

Lemma spaced_visible l : l <> [] -> exists c t, print_spaced l = c :: t /\ is_space c = false /\ c <> c_hash.
Proof.
  destruct l as [|x l]; [congruence|]. intros _. destruct (print_Z_visible x) as (_ & c & t & E & H1 & H2 & _).
  destruct l; cbn [print_spaced]; rewrite E; cbn [app]; eauto.
Qed.
Lemma spaced_no_nl l : no_nl (print_spaced l).
Proof.
  induction l as [|x l IH]; [intros []|]. destruct l as [|y l]; [apply print_Z_no_nl|].
  cbn [print_spaced] in *. apply no_nl_app. split; [apply print_Z_no_nl|]. apply no_nl_app. split; [intros [X|[]]; discriminate|assumption].
Qed.
Lemma spaced_length l : Forall c_int l -> (List.length (print_spaced l) <= 12 * List.length l)%nat.
Proof.
  induction 1 as [|x l Hx Hl IH]; [cbn; lia|]. pose proof (int_length x Hx). destruct l as [|y l]; cbn [print_spaced] in *; [cbn; lia|].
  rewrite !app_length. cbn [List.length] in *. lia.
Qed.
Lemma scan_spaced l : Forall c_int l -> scan_ints (List.length l) (print_spaced l) = Ok l.
Proof.
  assert (F : forall v, c_int v -> fits 32 v = true).
  { intros v Hv. unfold c_int in Hv. unfold fits, smin, smax. change (32 - 1) with 31. lia. }
  induction 1 as [|x l Hx Hl IH]; [reflexivity|]. destruct l as [|y l].
  - cbn [print_spaced List.length scan_ints]. rewrite <- (app_nil_r (print_Z x)), scan_print_nospace by exact I. rewrite F by assumption. reflexivity.
  - change (print_spaced (x :: y :: l)) with (print_Z x ++ [c_sp] ++ print_spaced (y :: l)).
    remember (y :: l) as m. cbn [List.length scan_ints].
    rewrite scan_print_nospace by reflexivity. rewrite F by assumption.
    assert (X : scan_ints (List.length m) ([c_sp] ++ print_spaced m) = scan_ints (List.length m) (print_spaced m)).
    { rewrite Heqm. cbn [List.length scan_ints]. rewrite scan_Z_skip by (repeat constructor). reflexivity. }
    rewrite X, IH. reflexivity.
Qed.
Lemma snp_short t : (List.length t <= 2047)%nat -> snp t = t.
Proof. intros H. unfold snp. now apply firstn_all2. Qed.
Lemma dep_type_ok t : In t [-1; 1; 2; 3; 4; 5] -> exists w c, dep_type_string t = Ok (w ++ c) /\
  word_string 12 w /\ dep_type_of w = t /\ (List.length (w ++ c) <= 27)%nat /\
  (c = [] \/ exists c', c = c_sp :: c_hash :: c' /\ no_nl c').
Proof.
  intros H. cbn in H.
  destruct H as [<-|[<-|[<-|[<-|[<-|[<-|[]]]]]]].
  - exists (lit "UNSET"), []. split; [reflexivity|]. split; [wlit|]. split; [reflexivity|]. split; [cbn; lia|]. now left.
  - exists (lit "RAW"), (lit " #(flow)"). split; [reflexivity|]. split; [wlit|]. split; [reflexivity|]. split; [cbn; lia|].
    right. eexists. split; [reflexivity|]. apply no_nlb_ok. reflexivity.
  - exists (lit "WAR"), (lit " #(anti)"). split; [reflexivity|]. split; [wlit|]. split; [reflexivity|]. split; [cbn; lia|].
    right. eexists. split; [reflexivity|]. apply no_nlb_ok. reflexivity.
  - exists (lit "WAW"), (lit " #(output)"). split; [reflexivity|]. split; [wlit|]. split; [reflexivity|]. split; [cbn; lia|].
    right. eexists. split; [reflexivity|]. apply no_nlb_ok. reflexivity.
  - exists (lit "RAR"), (lit " #(input)"). split; [reflexivity|]. split; [wlit|]. split; [reflexivity|]. split; [cbn; lia|].
    right. eexists. split; [reflexivity|]. apply no_nlb_ok. reflexivity.
  - exists (lit "RAW_SCALPRIV"), (lit " #(scalar priv)"). split; [reflexivity|]. split; [wlit|]. split; [reflexivity|]. split; [cbn; lia|].
    right. eexists. split; [reflexivity|]. apply no_nlb_ok. reflexivity.
Qed.

Lemma dependence_item (cfg : config) p n d t : config_ok cfg -> supported cfg p -> c_int n -> dependence_ok cfg p d ->
  dependence_sprint_one n d = Ok t -> item (fun s => osl_dependence_read_one_dep s p) d t.
Proof.
  intros Hcfg Hsup Hn Hd Ht before after Hb. destruct d as [ls lt rs rt dp ty dom dims].
  destruct Hd as (Hty & H1 & H2 & H3 & H4 & H5 & Hlen & Hdims & r & rty & Hdom & Hrty & Hsav).
  cbn [de_type de_label_source de_label_target de_ref_source de_ref_target de_depth de_dims de_domain] in *. subst dom.
  unfold dependence_sprint_one in Ht. cbn [de_type de_label_source de_label_target de_ref_source de_ref_target de_depth de_dims de_domain] in Ht.
  destruct (dep_type_ok ty Hty) as (w & c & Ew & Hw & Et & Hwl & Hc). rewrite Ew in Ht. cbn [bind] in Ht. inv_bind Ht.
  apply Ok_inj in Ht. subst t.
  pose proof (int_length n Hn). pose proof (int_length ls H1). pose proof (int_length lt H2).
  pose proof (int_length rs H3). pose proof (int_length rt H4). pose proof (int_length dp H5).
  pose proof (spaced_length dims Hdims) as Hsl.
  rewrite snp_short by (unfold lnZ, ln; rewrite !app_length; rewrite app_length in Hwl; cbn; lia).
  rewrite snp_short by (unfold lnZ, ln; rewrite !app_length; rewrite Hlen in Hsl; cbn; lia).
  unfold osl_dependence_read_one_dep. rewrite <- !app_assoc.
  assert (B1 : blank_text (lit "# Description of dependence " ++ lnZ n)).
  { apply (blank_ln (lit " Description of dependence " ++ print_Z n)). apply no_nl_app. split; [apply no_nlb_ok; reflexivity|apply print_Z_no_nl]. }
  rewrite rd_str_blank by assumption.
  match goal with |- context [lit "# Description of dependence " ++ lnZ n ++ ?x] =>
    replace (lit "# Description of dependence " ++ lnZ n ++ x) with ((lit "# Description of dependence " ++ lnZ n) ++ x) by (rewrite <- app_assoc; reflexivity) end.
  rewrite rd_str_blank by assumption. rewrite rd_str_blank by blk.
  match goal with |- context [ln (w ++ c) ++ ?x] => set (rest := x) end.
  assert (R : exists g, blank_text g /\ osl_util_read_string_s (ln (w ++ c) ++ rest) = Ok (w, g ++ rest)).
  { unfold ln. rewrite <- !app_assoc. destruct Hc as [->|(c' & -> & Hc')].
    - cbn [app]. rewrite (rd_str 12) by (assumption || lia || reflexivity). exists [c_nl]. split; [blank|reflexivity].
    - cbn [app]. rewrite (rd_str 12) by (assumption || lia || reflexivity). exists (c_sp :: ln (c_hash :: c')). split.
      + apply bt_space; [reflexivity|]. now apply blank_ln.
      + unfold ln. cbn [app]. rewrite <- app_assoc. reflexivity. }
  destruct R as (g & Hg & R). rewrite R. cbn [bind]. subst rest. rewrite <- ?app_assoc.
  do 5 (repeat (first [rewrite rd_int_c by reflexivity | rewrite rd_int_blank by (assumption || blk)]);
        rewrite rd_lnZ by assumption; cbn [bind]).
  destruct (spaced_visible dims) as (x0 & x1 & Ex & Hx0 & Hx1); [destruct dims; discriminate|].
  match goal with |- context [osl_util_sskip_blank_and_comments ?s] =>
    assert (S : osl_util_sskip_blank_and_comments s = Ok (print_spaced dims ++ c_nl :: ln (lit "# Dependence domain") ++ v ++ after)) end.
  { change (c_nl :: ?x) with ([c_nl] ++ x). rewrite sskip_blank by blank. rewrite sskip_blank by blk. rewrite sskip_blank by blk. rewrite sskip_blank by blk.
    unfold ln at 1. rewrite <- app_assoc. apply sskip_meaningful. rewrite Ex. cbn. auto. }
  rewrite S. cbn [bind]. rewrite span_exact; [|apply not_nl_all, spaced_no_nl|reflexivity].
  rewrite store_ok by (rewrite Hlen in Hsl; lia). cbn [bind].
  rewrite <- Hlen, scan_spaced by assumption. cbn [bind]. unfold zlength. rewrite Hlen. change (negb (Z.of_nat 8 =? 8)) with false. cbv iota.
  change (c_nl :: ?x) with ([c_nl] ++ x). rewrite rd_rel_blank by blank. rewrite rd_rel_blank by blk.
  destruct (C21_single_part_roundtrip cfg p rty r None v after Hcfg Hsup Hrty Hsav I E) as (b & Hb' & X). rewrite X. cbn [bind].
  rewrite Et. gap b.
Qed.
Lemma Some_eq {A} (a b : A) : Some a = Some b -> a = b.
Proof. congruence. Qed.
Theorem C33_dependence_roundtrip : forall (cfg : config) p l text, config_ok cfg -> supported cfg p ->
  count_ok l -> Forall (dependence_ok cfg p) l ->
  osl_dependence_sprint l = Ok (Some text) ->
  roundtrip (osl_dependence_sprint l) (fun s => osl_dependence_psread s p) l.
Proof.
  intros cfg p l text Hcfg Hsup Hc Hl Hp. exists text. split; [assumption|]. unfold osl_dependence_sprint in Hp. inv_bind Hp.
  apply Ok_inj in Hp. apply Some_eq in Hp. subst text. unfold count_ok in Hc.
  assert (G : forall n, 0 <= n -> n + Z.of_nat (List.length l) < 2 ^ 31 + 1 -> forall v, dependences_sprint n l = Ok v -> exists ts, v = concat ts /\
     Forall2 (item (fun s => osl_dependence_read_one_dep s p)) l ts).
  { clear E Hc v. induction Hl as [|d l Hd Hl IH]; intros n Hn Hb v E; cbn [dependences_sprint] in E.
    - apply Ok_inj in E. subst. exists []. split; [reflexivity|constructor].
    - inv_bind E. inv_bind E. apply Ok_inj in E. subst v. cbn [List.length] in Hb.
      destruct (IH (n + 1) ltac:(lia) ltac:(lia) _ E1) as (ts & -> & F).
      exists (v0 :: ts). split; [reflexivity|]. constructor; [|assumption]. apply (dependence_item cfg p n); try assumption.
      unfold c_int. lia. }
  destruct (G 1 ltac:(lia) ltac:(lia) v E) as (ts & -> & F).
  intros before after Hb. unfold osl_dependence_psread.
  rewrite <- ?app_assoc. rewrite rd_int_blank by assumption. rewrite rd_int_blank by blk. rewrite rd_lnZ by (now apply count_c_int). cbn [bind].
  rewrite count_nat.
  apply (many_ok (fun s => osl_dependence_read_one_dep s p) (fun n s => dependences_sread n s p)) with (before := [c_nl]) (ts := ts); try reflexivity; [assumption|blank].
Qed.
Print Assumptions C33_dependence_roundtrip.
Theorem C33_dependence_equal : forall (cfg : config) a b, config_ok cfg ->
  Forall (fun d => wf_union cfg (de_domain d)) a -> Forall (fun d => wf_union cfg (de_domain d)) b ->
  a <> [] -> b <> [] ->
  exists r, osl_dependence_equal a b = Ok r /\ (r = true <-> a = b).
Proof.
  intros cfg a b Hcfg Ha. revert b.
  assert (DE : forall x y, dims_eqb x y = true <-> x = y).
  { induction x as [|u x IH]; intros [|v y]; unfold dims_eqb; cbn -[zlength]; try (split; (reflexivity || discriminate)).
    specialize (IH y). unfold dims_eqb in IH. rewrite !zlength_cons.
    replace (1 + zlength x =? 1 + zlength y) with (zlength x =? zlength y) by lia.
    rewrite !andb_true_iff, !Z.eqb_eq in *. split.
    - intros (A & -> & C). f_equal. tauto.
    - intros X. injection X as -> ->. destruct IH as [_ IH]. specialize (IH eq_refl). tauto. }
  induction Ha as [|x a Hx Ha IH]; intros b Hb Hna Hnb; [congruence|].
  destruct Hb as [|y b Hy Hb]; [congruence|]. cbn [osl_dependence_equal].
  assert (N : exists r, match a, b with
     | [], [] => Ok true | [], _ | _, [] => Ok false | _, _ => osl_dependence_equal a b end = Ok r /\ (r = true <-> a = b)).
  { destruct a as [|x' a]; destruct b as [|y' b]; try (eexists; split; [reflexivity|split; (reflexivity || discriminate)]).
    apply IH; [assumption|discriminate|discriminate]. }
  destruct N as (r & E & Hr).
  match goal with |- context [bind ?X _] => replace X with (Ok (A:=bool) r) by (symmetry; destruct a, b; exact E) end. cbn [bind].
  destruct r; cbn [negb].
  2: { exists false. split; [reflexivity|]. split; [discriminate|]. intros X. injection X as _ X. now apply Hr. }
  assert (a = b) as -> by now apply Hr.
  destruct (equal_ok (de_domain x) (de_domain y) Hx Hy) as (q & -> & Hq'). cbn [bind].
  destruct q; cbn [negb].
  2: { exists false. split; [reflexivity|]. split; [discriminate|]. intros X. injection X as ->. now apply Hq'. }
  eexists. split; [reflexivity|]. rewrite !andb_true_iff, !Z.eqb_eq, DE.
  assert (D : de_domain x = de_domain y) by now apply Hq'.
  destruct x as [x1 x2 x3 x4 x5 x6 x7 x8], y as [y1 y2 y3 y4 y5 y6 y7 y8]. cbn in *. subst.
  split; [intros ((((((-> & ->) & ->) & ->) & ->) & ->) & ->); reflexivity|intros X; injection X; auto 10].
Qed.
Print Assumptions C33_dependence_equal.
(** NULL against a list is dereferenced; a missing domain prints a text that cannot be read back. *)
Theorem C33_dependence_null_refuted : forall (cfg : config) d l, osl_dependence_equal [] (d :: l) = UB /\ osl_dependence_equal (d :: l) [] = UB.
Proof. auto. Qed.
Print Assumptions C33_dependence_null_refuted.
Theorem C33_dependence_no_domain_refuted : exists text,
  @osl_dependence_sprint lp64_debug [Dependence 0 1 0 1 1 1 [] [0;0;0;0;0;0;0;0]] = Ok (Some text) /\
  is_ok (@osl_dependence_psread lp64_debug text 64) = false.
Proof. eexists. split; [vm_compute; reflexivity|]. vm_compute. reflexivity. Qed.
Print Assumptions C33_dependence_no_domain_refuted.
Example C33_dependence_ex : exists text,
  @osl_dependence_sprint lp64_debug [Dependence 0 1 0 2 1 3 [mkrel TYPE_DOMAIN 64 1 4 1 0 0 1 [[1;1;0;-5]]] [1;1;1;1;0;0;0;0]] = Ok (Some text) /\
  dependence_ok lp64_debug 64 (Dependence 0 1 0 2 1 3 [mkrel TYPE_DOMAIN 64 1 4 1 0 0 1 [[1;1;0;-5]]] [1;1;1;1;0;0;0;0]).
Proof.
  eexists. split; [vm_compute; reflexivity|]. unfold dependence_ok.
  cbn [de_type de_label_source de_label_target de_ref_source de_ref_target de_depth de_dims de_domain].
  split; [cbn; tauto|]. do 5 (split; [unfold c_int; lia|]).
  split; [reflexivity|]. split; [repeat (constructor; [unfold c_int; lia|]); constructor|].
  eexists. exists TYPE_DOMAIN. split; [reflexivity|]. split; [cbn; tauto|]. savable_lit.
Qed.
