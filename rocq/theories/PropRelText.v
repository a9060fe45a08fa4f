(** * PropRelText: properties C20, C21 and C42 (textual form of relations) *)
From Coq Require Import ZifyBool ZifyNat.
From Verif Require Import Base IntModel VectorModel RelationModel UtilModel StringsModel RelTextModel
  Spec RelSpec TextSpec LoopLemmas IntProofs TextInt VectorProofs RelationProofs UtilProofs RelTextProofs
  PropStrings RelTextProofs2 RelTextProofs3 RelTextProofs4.

(** ** Specification *)

(** The types that have a spelling in the OpenScop format. *)
Definition printable_type (t : Z) : Prop :=
  In t [UNDEFINED; TYPE_CONTEXT; TYPE_DOMAIN; TYPE_SCATTERING; TYPE_READ; TYPE_WRITE; TYPE_MAY_WRITE].

(** A part that the format can carry: well formed, attributes in the range of
    C int, and with the precision and the type common to the whole union. *)
Definition savable (cfg : config) (p t : Z) (r : relation) : Prop :=
  wf_rel cfg r /\ rprec r = p /\ rtype r = t /\
  c_int (nrows r) /\ c_int (ncols r) /\ c_int (nout r) /\ c_int (nin r) /\ c_int (nloc r) /\ c_int (npar r).

(** Names given by the caller contain no newline. *)
Definition one_line_names (on : option names) : Prop :=
  match on with
  | None => True
  | Some n => Forall no_nl (elems (n_params n)) /\ Forall no_nl (elems (n_iters n)) /\
              Forall no_nl (elems (n_scatt n)) /\ Forall no_nl (elems (n_locals n)) /\
              Forall no_nl (elems (n_arrays n))
  end.

(** ** Lemmas *)
Ltac norm_app := repeat (progress (cbn [app]; rewrite <- ?app_assoc)).
Ltac norm_app_in H := repeat (progress (cbn [app] in H; rewrite <- ?app_assoc in H)).
Lemma type_plain t : plain_string (type_string t).
Proof.
  unfold type_string.
  repeat match goal with |- plain_string (if ?b then _ else _) => destruct b end;
    (split; [discriminate|]; split; [cbn; lia|]; intros c Hc; cbn in Hc;
     repeat (destruct Hc as [<-|Hc]; [split; [reflexivity|discriminate]|]); destruct Hc).
Qed.
Lemma parse_print_type t : printable_type t -> parse_type (type_string t) = Ok t.
Proof. intros H. cbn in H. repeat (destruct H as [<-|H]; [reflexivity|]). destruct H. Qed.

Section T.
Context {cfg : config} (Hcfg : config_ok cfg).

Lemma savable_readable p t r : savable cfg p t r <-> @readable cfg p t r.
Proof. unfold savable, readable, int_dims. tauto. Qed.

Lemma nb_components_length u : osl_relation_nb_components u = zlength u.
Proof. induction u as [|r u IH]; [reflexivity|]. cbn [osl_relation_nb_components]. rewrite IH, zlength_cons. reflexivity. Qed.

(** What spprint writes. *)
Lemma spprint_shape p t r u on text : Forall (savable cfg p t) (r :: u) -> one_line_names on ->
  osl_relation_spprint (r :: u) on = Ok text ->
  exists hd body, text = type_string (rtype r) ++ c_nl :: hd ++ body /\ parts_text (r :: u) body /\
    ((u = [] /\ hd = []) \/
     (exists w, hd = c_hash :: w ++ c_nl :: print_Z (zlength (r :: u)) ++ [c_nl] /\ no_nl w)).
Proof.
  intros Hs Hon H. unfold osl_relation_spprint in H.
  destruct (0 <? osl_relation_nb_components (r :: u)) eqn:E0; [|rewrite nb_components_length, zlength_cons in E0; pose proof (zlength_nonneg u); lia].
  inv_bind H. apply Ok_inj in H. subst text. cbn [osl_relation_sprint_type].
  unfold osl_relation_spprint_polylib in E. inv_bind E.
  assert (Hg : good_names v0).
  { destruct on as [n|]; [|now apply relation_names_good in E1]. injection E1 as ->. exact Hon. }
  inv_bind E. apply Ok_inj in E. subst v. rewrite nb_components_length in *.
  eexists. exists v1. split; [|split].
  - reflexivity.
  - eapply print_parts_shape; [exact Hg| | |exact E2].
    + revert Hs. apply Forall_impl. unfold savable. tauto.
    + revert Hs. apply Forall_impl. unfold savable, int_dims. tauto.
  - destruct (Z.ltb_spec 1 (zlength (r :: u))) as [Hlt|Hlt].
    + right. exists (lit " Union with " ++ print_Z (zlength (r :: u)) ++ lit " parts"). split.
      * rewrite <- !app_assoc. reflexivity.
      * apply no_nl_app. split; [apply no_nl_lit; reflexivity|]. apply no_nl_app.
        split; [apply print_Z_no_nl|apply no_nl_lit; reflexivity].
    + left. split; [|reflexivity]. rewrite zlength_cons in Hlt. pose proof (zlength_nonneg u).
      apply zlength_0. lia.
Qed.
End T.

(** ** C20: files *)

(** A printed union reads back from a file as the same union, whatever names
    were used for the comments, and the stream is left exactly after it. *)
Theorem C20_file_roundtrip : forall (cfg : config) p t u on text rest e,
  config_ok cfg -> u <> [] -> zlength u <= 2 ^ 31 - 1 -> supported cfg p -> printable_type t ->
  Forall (savable cfg p t) u -> one_line_names on ->
  osl_relation_spprint u on = Ok text -> short_lines text ->
  osl_relation_pread (File (text ++ rest) e) p = Ok (u, File rest e).
Proof.
  intros cfg p t u on text rest e Hcfg Hne Hlen Hsup Ht Hs Hon H Hsh. destruct u as [|r u]; [congruence|].
  pose proof (spprint_shape p t r u on text Hs Hon H) as (hd & body & -> & Hb & Hhd).
  pose proof (Forall_inv Hs) as Hr. destruct Hr as (Hw & Hp & Hty & Hd). rewrite Hty in *.
  assert (Hplain := type_plain t).
  unfold osl_relation_pread, osl_relation_read_type_f.
  assert (Hread : osl_strings_read (File ((type_string t ++ c_nl :: hd ++ body) ++ rest) e)
                  = Ok (Some (Some [type_string t]), File ((hd ++ body) ++ rest) e)).
  { pose proof (C28_file_roundtrip [type_string t] ((hd ++ body) ++ rest) e (type_string t ++ [c_nl])) as X.
    rewrite <- app_assoc in X. cbn [app] in X. rewrite <- app_assoc. cbn [app]. apply X.
    - discriminate.
    - constructor; [assumption|constructor].
    - unfold osl_strings_sprint. cbn [elems]. rewrite sprint_elems_ok by (constructor; [assumption|constructor]). reflexivity.
    - rewrite app_length. cbn [List.length]. assert (List.length (type_string t) <= 10)%nat; [|lia].
      unfold type_string. repeat match goal with |- context [if ?b then _ else _] => destruct b end; cbn; lia. }
  rewrite Hread. cbn [bind type_of_strings]. rewrite parse_print_type by assumption. cbn [bind].
  inversion Hb as [|? ? t1 t2 (pre & body1 & -> & Hpre & Hrt & Hpos) Ht2]; subst.
  assert (Hsh1 : short_lines (hd ++ (pre ++ dims_line r ++ c_nl :: body1) ++ t2)).
  { apply (short_lines_tail (type_string (rtype r) ++ [c_nl])). rewrite <- app_assoc. exact Hsh. }
  assert (Hsh2 : short_lines (pre ++ dims_line r ++ c_nl :: body1)).
  { apply short_lines_tail in Hsh1. eapply short_lines_left. exact Hsh1. }
  assert (Hsb : short_lines body1).
  { apply short_lines_tail in Hsh2. apply (short_lines_tail (dims_line r ++ [c_nl])). rewrite <- app_assoc. exact Hsh2. }
  assert (Hst : short_lines t2) by (apply short_lines_tail, short_lines_tail in Hsh1; exact Hsh1).
  assert (Hsp : short_lines pre) by (eapply short_lines_left; exact Hsh2).
  assert (Hmain : forall n, n = zlength (r :: u) ->
     read_parts_f (rprec r) (rtype r) (Z.to_nat (n - 1)) [nrows r; ncols r; nout r; nin r; nloc r; npar r]
       (File (body1 ++ t2 ++ rest) e) (Scratch None None) = Ok (r :: u, File rest e)).
  { intros n ->. replace (Z.to_nat (zlength (r :: u) - 1)) with (List.length u)
      by (rewrite zlength_cons; unfold zlength; lia).
    apply (read_parts_f_ok Hcfg); try assumption. revert Hs. apply Forall_impl. intros r0. now rewrite savable_readable. }
  destruct Hhd as [[-> ->]|(w & -> & Hwn)].
  - cbn [app]. inversion Ht2; subst.
    replace (((pre ++ dims_line r ++ c_nl :: body1) ++ []) ++ rest) with (pre ++ dims_line r ++ c_nl :: body1 ++ [] ++ rest)
      by (rewrite <- !app_assoc; reflexivity).
    rewrite first_dims_f_one by assumption. cbn [bind]. now apply Hmain.
  - replace (((c_hash :: w ++ c_nl :: print_Z (zlength (r :: u)) ++ [c_nl]) ++ (pre ++ dims_line r ++ c_nl :: body1) ++ t2) ++ rest)
      with ((c_hash :: w ++ c_nl :: []) ++ print_Z (zlength (r :: u)) ++ c_nl :: pre ++ dims_line r ++ c_nl :: body1 ++ t2 ++ rest)
      by (norm_app; reflexivity).
    assert (c_int (zlength (r :: u))) by (unfold c_int; rewrite zlength_cons in *; pose proof (zlength_nonneg u); lia).
    rewrite first_dims_f_union; try assumption.
    + cbn [bind]. now apply Hmain.
    + rewrite zlength_cons. pose proof (zlength_nonneg u). lia.
    + now apply comment_line_one.
    + apply (short_lines_left _ (print_Z (zlength (r :: u)) ++ c_nl :: (pre ++ dims_line r ++ c_nl :: body1) ++ t2)).
      clear - Hsh1. norm_app. norm_app_in Hsh1. exact Hsh1.
Qed.
Print Assumptions C20_file_roundtrip.

(** The same through osl_relation_print and osl_relation_read: generated names,
    precision of the environment. *)
Theorem C20_print_read : forall (cfg : config) env t u text rest e,
  config_ok cfg -> u <> [] -> zlength u <= 2 ^ 31 - 1 -> printable_type t ->
  Forall (savable cfg (osl_util_get_precision env) t) u ->
  osl_relation_sprint u = Ok text -> short_lines text ->
  osl_relation_read env (File (text ++ rest) e) = Ok (u, File rest e).
Proof.
  intros cfg env t u text rest e Hcfg Hne Hlen Ht Hs H Hsh.
  apply (C20_file_roundtrip cfg (osl_util_get_precision env) t u None text rest e); try assumption; [|exact I].
  destruct u as [|r u]; [congruence|]. apply Forall_inv in Hs. destruct Hs as (Hw & <- & _). now apply wf_supp.
Qed.
Print Assumptions C20_print_read.

(** ** C21: strings *)

(** What reading a printed union from a string gives: every coefficient and
    dimension, and the type on the first part only; the cursor is left before
    the rest, up to blanks and the last comment. *)
Theorem C21_string_read : forall (cfg : config) p t r u on text rest,
  config_ok cfg -> zlength (r :: u) <= 2 ^ 31 - 1 -> supported cfg p -> printable_type t ->
  Forall (savable cfg p t) (r :: u) -> one_line_names on ->
  osl_relation_spprint (r :: u) on = Ok text ->
  exists b, blank_text b /\
    osl_relation_psread (text ++ rest) p = Ok (r :: map (fun r => with_type r UNDEFINED) u, b ++ rest).
Proof.
  intros cfg p t r u on text rest Hcfg Hlen Hsup Ht Hs Hon H.
  pose proof (spprint_shape p t r u on text Hs Hon H) as (hd & body & -> & Hb & Hhd).
  pose proof (Forall_inv Hs) as Hr. destruct Hr as (Hw & Hp & Hty & Hd). rewrite Hty in *.
  assert (Hplain := type_plain t).
  unfold osl_relation_psread, osl_relation_read_type_s.
  replace ((type_string t ++ c_nl :: hd ++ body) ++ rest) with (join [type_string t] ++ c_nl :: (hd ++ body) ++ rest)
    by (norm_app; reflexivity).
  rewrite strings_sread_ok; [|constructor; [assumption|constructor]|discriminate].
  cbn [bind type_of_strings]. rewrite parse_print_type by assumption. cbn [bind].
  inversion Hb as [|? ? t1 t2 (pre & body1 & -> & Hpre & Hrt & Hpos) Ht2]; subst.
  assert (Hmain : forall n sc, n = zlength (r :: u) -> exists b', blank_text b' /\
     read_parts_s (rprec r) (Z.to_nat (n - 1)) [nrows r; ncols r; nout r; nin r; nloc r; npar r]
       (c_nl :: body1 ++ t2 ++ rest) sc = Ok (map (fun r => with_type r UNDEFINED) (r :: u), b' ++ rest)).
  { intros n sc ->. replace (Z.to_nat (zlength (r :: u) - 1)) with (List.length u)
      by (rewrite zlength_cons; unfold zlength; lia).
    change (c_nl :: body1 ++ t2 ++ rest) with ([c_nl] ++ body1 ++ t2 ++ rest).
    apply (read_parts_s_ok Hcfg); try assumption.
    - revert Hs. apply Forall_impl. unfold savable, int_dims. tauto.
    - apply blank_nl. constructor. }
  assert (Hfin : forall n sc, n = zlength (r :: u) -> exists b', blank_text b' /\
     match read_parts_s (rprec r) (Z.to_nat (n - 1)) [nrows r; ncols r; nout r; nin r; nloc r; npar r]
       (c_nl :: body1 ++ t2 ++ rest) sc with
     | Ok (u0, s) => match u0 with [] => UB | r0 :: next => Ok (with_type r0 (rtype r) :: next, s) end
     | Err => Err | UB => UB | OutOfFuel => OutOfFuel end
     = Ok (r :: map (fun r => with_type r UNDEFINED) u, b' ++ rest)).
  { intros n sc Hn. destruct (Hmain n sc Hn) as (b' & Hb' & E). exists b'. split; [assumption|].
    rewrite E. cbn [map]. f_equal. f_equal. f_equal. destruct r; reflexivity. }
  unfold osl_relation_psread_polylib.
  destruct Hhd as [[-> ->]|(w & -> & Hwn)].
  - cbn [app]. inversion Ht2; subst.
    replace (((pre ++ dims_line r ++ c_nl :: body1) ++ []) ++ rest) with (pre ++ dims_line r ++ c_nl :: body1 ++ [] ++ rest)
      by (rewrite <- !app_assoc; reflexivity).
    unfold first_dims_s. destruct (dims_s_ok r pre (body1 ++ [] ++ rest) (Scratch None None) Hd) as (sc & ->);
      [now apply comment_line_blank|]. cbn [bind List.length Nat.eqb].
    destruct (Hfin 1 sc eq_refl) as (b & Hbb & E). exists b. split; [assumption|].
    cbn [app] in E |- *. destruct (read_parts_s (rprec r)); cbn [bind] in *; exact E.
  - replace (((c_hash :: w ++ c_nl :: print_Z (zlength (r :: u)) ++ [c_nl]) ++ (pre ++ dims_line r ++ c_nl :: body1) ++ t2) ++ rest)
      with ((c_hash :: w ++ c_nl :: []) ++ print_Z (zlength (r :: u)) ++ c_nl :: pre ++ dims_line r ++ c_nl :: body1 ++ t2 ++ rest)
      by (norm_app; reflexivity).
    assert (Hci : c_int (zlength (r :: u))) by (unfold c_int; rewrite zlength_cons in *; pose proof (zlength_nonneg u); lia).
    assert (Hn1 : 1 <= zlength (r :: u)) by (rewrite zlength_cons; pose proof (zlength_nonneg u); lia).
    unfold first_dims_s.
    rewrite (read_dims_s_line _ (print_Z (zlength (r :: u))) _ _ [zlength (r :: u)]).
    2: { apply comment_line_blank. now apply comment_line_one. }
    2: { apply print_Z_no_nl. }
    2: { pose proof (int_length _ Hci). unfold zlength at 1. lia. }
    2: { destruct (print_Z_visible (zlength (r :: u))) as (_ & c & t & E & H1 & H2 & _). eauto 6. }
    2: { rewrite <- (app_nil_r (print_Z _)). now apply scan_ints_one. }
    cbn [bind]. destruct (Z.ltb_spec (zlength (r :: u)) 1); [lia|]. unfold next_dims_s.
    set (sc0 := Scratch _ _).
    destruct (dims_s_ok r (c_nl :: pre) (body1 ++ t2 ++ rest) sc0 Hd) as (sc & E);
      [apply blank_nl; now apply comment_line_blank|]. cbn [app] in E. rewrite E. cbn [bind List.length Nat.eqb].
    destruct (Hfin (zlength (r :: u)) sc eq_refl) as (b & Hbb & E'). exists b. split; [assumption|].
    destruct (read_parts_s (rprec r)); cbn [bind] in *; exact E'.
Qed.
Print Assumptions C21_string_read.

(** A relation with a single part reads back as itself. *)
Theorem C21_single_part_roundtrip : forall (cfg : config) p t r on text rest,
  config_ok cfg -> supported cfg p -> printable_type t ->
  savable cfg p t r -> one_line_names on ->
  osl_relation_spprint [r] on = Ok text ->
  exists b, blank_text b /\ osl_relation_psread (text ++ rest) p = Ok ([r], b ++ rest).
Proof.
  intros cfg p t r on text rest Hcfg Hsup Ht Hs Hon H.
  apply (C21_string_read cfg p t r [] on text rest); try assumption; [unfold zlength; cbn; lia|].
  constructor; [assumption|constructor].
Qed.
Print Assumptions C21_single_part_roundtrip.

(** The types of the other parts of a union are lost: what is read differs from
    what was printed for every union of two or more typed parts. *)
Theorem C21_union_refuted : forall (cfg : config) p t r r' u on text,
  config_ok cfg -> zlength (r :: r' :: u) <= 2 ^ 31 - 1 -> supported cfg p -> printable_type t ->
  t <> UNDEFINED -> Forall (savable cfg p t) (r :: r' :: u) -> one_line_names on ->
  osl_relation_spprint (r :: r' :: u) on = Ok text ->
  exists v rest, osl_relation_psread text p = Ok (v, rest) /\ v <> r :: r' :: u.
Proof.
  intros cfg p t r r' u on text Hcfg Hlen Hsup Ht Hne Hs Hon H.
  destruct (C21_string_read cfg p t r (r' :: u) on text [] Hcfg Hlen Hsup Ht Hs Hon H) as (b & _ & E).
  rewrite app_nil_r in E. eexists. eexists. split; [exact E|]. intros X. injection X as X _.
  apply Forall_inv_tail, Forall_inv in Hs. destruct Hs as (_ & _ & Hty & _).
  apply (f_equal rtype) in X. cbn in X. congruence.
Qed.
Print Assumptions C21_union_refuted.

Ltac savable_lit := unfold savable, c_int; split;
  [unfold wf_rel; cbn [rtype rprec nrows ncols nout nin nloc npar rm]; wf_lit|cbn; repeat split; lia].
(** ** The hypotheses are met, and what the exceptions look like *)
Definition ex_rel : list relation := [mkrel TYPE_DOMAIN 64 2 4 1 0 0 1 [[0;2;-1;5];[1;-3;0;-12345]]].
Definition ex_text : str :=
  lit "DOMAIN" ++ c_nl :: lit "2 4 1 0 0 1" ++ c_nl :: lit "# e/i| i1 | P1 |  1  "
  ++ c_nl :: lit "   0    2   -1    5    ## 2*i1-P1+5 == 0"
  ++ c_nl :: lit "   1   -3    0 -12345    ## -3*i1-12345 >= 0" ++ [c_nl].
Example C20_ex_printed : @osl_relation_sprint lp64_debug ex_rel = Ok ex_text.
Proof. vm_compute. reflexivity. Qed.
Example C20_ex_hyps : config_ok lp64_debug /\ ex_rel <> [] /\ printable_type TYPE_DOMAIN /\
  Forall (savable lp64_debug 64 TYPE_DOMAIN) ex_rel /\ one_line_names None /\ short_lines ex_text.
Proof.
  split; [right; reflexivity|]. split; [discriminate|]. split; [cbn; tauto|]. split.
  - constructor; [savable_lit|constructor].
  - split; [exact I|]. intros a l b E Hn. assert (H : (List.length ex_text <= 200)%nat) by (vm_compute; lia).
    rewrite E, !app_length in H. lia.
Qed.
Example C20_ex_read :
  @osl_relation_pread lp64_debug (File (ex_text ++ lit "tail") false) 64 = Ok (ex_rel, File (lit "tail") false).
Proof. vm_compute. reflexivity. Qed.
(** Two parts, in a file and in a string. *)
Example C20_ex_union : exists text,
  @osl_relation_sprint lp64_debug (ex_rel ++ ex_rel) = Ok text /\
  @osl_relation_pread lp64_debug (File text false) 64 = Ok (ex_rel ++ ex_rel, File [] false) /\
  exists rest, @osl_relation_psread lp64_debug text 64 =
    Ok (ex_rel ++ map (fun r => with_type r UNDEFINED) ex_rel, rest).
Proof. eexists. split; [vm_compute; reflexivity|]. split; [vm_compute; reflexivity|]. eexists. vm_compute. reflexivity. Qed.

(** The NULL relation prints as an empty text, which does not read back. *)
Theorem C20_null_refuted : forall cfg e,
  @osl_relation_sprint cfg [] = Ok [] /\ is_ok (@osl_relation_pread cfg (File [] e) 64) = false.
Proof. intros cfg e. split; reflexivity. Qed.
Print Assumptions C20_null_refuted.

(** A type without a spelling is replaced by UNDEFINED. *)
Theorem C20_access_type_refuted : exists u text,
  Forall (savable lp64_debug 64 TYPE_ACCESS) u /\ u <> [] /\
  @osl_relation_sprint lp64_debug u = Ok text /\
  @osl_relation_pread lp64_debug (File text false) 64 = Ok (map (fun r => with_type r UNDEFINED) u, File [] false) /\
  map (fun r => with_type r UNDEFINED) u <> u.
Proof.
  exists [mkrel TYPE_ACCESS 64 1 4 1 0 0 1 [[0;-1;0;5]]]. eexists. split.
  - constructor; [savable_lit|constructor].
  - split; [discriminate|]. split; [vm_compute; reflexivity|]. split; [vm_compute; reflexivity|discriminate].
Qed.
Print Assumptions C20_access_type_refuted.

(** Printing a well-formed relation with many columns overflows the buffer of
    the header line. *)
Theorem C20_wide_refuted : exists u, Forall (savable lp64_debug 64 TYPE_DOMAIN) u /\
  @osl_relation_sprint lp64_debug u = UB.
Proof.
  exists [mkrel TYPE_DOMAIN 64 1 500 498 0 0 0 [repeat 0 500]]. split; [|vm_compute; reflexivity].
  constructor; [savable_lit|constructor].
  apply Forall_forall. intros x Hx. apply repeat_spec in Hx. subst x. right. left. split; [reflexivity|lia].
Qed.
Print Assumptions C20_wide_refuted.

(** An access relation with no constraint giving the array identifier: the
    generated names are asked for with a negative number of arrays. *)
Theorem C20_access_without_array_refuted : exists u, Forall (savable lp64_debug 64 TYPE_READ) u /\
  @osl_relation_sprint lp64_debug u = UB.
Proof.
  exists [mkrel TYPE_READ 64 0 4 1 0 0 1 []]. split; [|vm_compute; reflexivity].
  constructor; [savable_lit|constructor].
Qed.
Print Assumptions C20_access_without_array_refuted.

(** ** C42: rows with missing coefficients *)

(** In a file: after any number of complete rows, a row with fewer numbers than
    columns, separated by single blanks and followed by the end of the line,
    stops the program.  The relation [r] gives the announced attributes and the
    complete rows. *)
Section C42.
Context {cfg : config} (Hcfg : config_ok cfg).

Lemma read_cell_print_nl p v sp rest sc old c0 : representable cfg p v -> fits_buffer v -> only_sp sp -> is_space c0 = true ->
  exists sc', read_cell p (sp ++ print_Z v ++ c0 :: rest) sc old = Ok (v, c0 :: rest, sc').
Proof.
  intros Hv Hb Hsp H0. unfold read_cell.
  rewrite skip_spaces_app by (apply only_sp_space; assumption).
  destruct (print_Z_visible v) as (Hvis & c & t & Hp & Hc & _).
  rewrite Hp. cbn [app]. rewrite skip_spaces_nonspace by assumption.
  change (c :: t ++ c0 :: rest) with ((c :: t) ++ c0 :: rest). rewrite <- Hp.
  rewrite (span_exact not_space (print_Z v) (c0 :: rest)); [|assumption|cbn; unfold not_space; now rewrite H0].
  rewrite (buf_store_ok _ Hb). cbn [bind]. rewrite (sread_print Hcfg) by assumption. cbn [bind]. eauto.
Qed.

Lemma read_cells_short p A B : forall row v k done junk sp sc,
  Forall (representable cfg p) (v :: row) -> Forall fits_buffer (v :: row) ->
  List.length junk = (S k + List.length (v :: row))%nat -> only_sp sp ->
  for_loop (S k + List.length (v :: row)) (zlength done) (fun j s =>
    let '(m, c, sc) := s in
    if match c with ch :: _ => ceqb ch c_hash || ceqb ch c_nl | [] => false end then Err
    else
      old <- mget m (zlength A) j ;;
      '(v, c, sc) <- read_cell p c sc old ;;
      m <- mset m (zlength A) j v ;;
      Ok (m, c, sc)) (A ++ (done ++ junk) :: B, sp ++ join (map print_Z (v :: row)) ++ [c_nl], sc)
  = Err.
Proof.
  induction row as [|v' row IH]; intros v k done junk sp sc Hr Hb Hj Hsp;
    (destruct junk as [|x junk]; [discriminate|]); inversion Hr as [|? ? Hr1 Hr2]; subst;
    inversion Hb as [|? ? Hb1 Hb2]; subst; cbn [List.length];
    rewrite Nat.add_succ_r; cbn [for_loop].
  all: match goal with |- context [if ?b then Err else _] => replace b with false end;
    [|symmetry; destruct Hsp as [|c sp -> Hsp];
      [destruct (print_Z_visible v) as (_ & c & t & Ep & _ & H1 & H2); cbn [map join]; rewrite Ep; cbn [app];
       apply orb_false_iff; split; apply ceqb_neq; assumption | reflexivity]].
  all: rewrite mget_at; cbn [bind].
  - cbn [map join].
    destruct (read_cell_print_nl p v sp [] sc x c_nl Hr1 Hb1 Hsp eq_refl) as (sc' & ->). cbn [bind].
    rewrite mset_at. cbn [bind]. rewrite Nat.add_0_r. cbn [for_loop]. reflexivity.
  - cbn [map]. rewrite join_cons.
    replace (sp ++ (print_Z v ++ c_sp :: join (print_Z v' :: map print_Z row)) ++ [c_nl])
      with (sp ++ print_Z v ++ c_sp :: join (map print_Z (v' :: row)) ++ [c_nl]) by (norm_app; reflexivity).
    destruct (read_cell_print_nl p v sp (join (map print_Z (v' :: row)) ++ [c_nl]) sc x c_sp Hr1 Hb1 Hsp eq_refl) as (sc' & ->). cbn [bind].
    rewrite mset_at. cbn [bind].
    replace (zlength done + 1) with (zlength (done ++ [v])) by (rewrite zlength_app, zlength_one; lia).
    change (done ++ v :: junk) with (done ++ [v] ++ junk). rewrite app_assoc.
    change (c_sp :: join (map print_Z (v' :: row)) ++ [c_nl]) with ([c_sp] ++ join (map print_Z (v' :: row)) ++ [c_nl]).
    apply (IH v' k (done ++ [v]) junk [c_sp] sc'); try assumption.
    + cbn in Hj |- *. lia.
    + constructor; [reflexivity|constructor].
Qed.
End C42.

(** [for_loop] in two pieces. *)
Lemma for_loop_app {S} n1 n2 i (body : Z -> S -> res S) s :
  for_loop (n1 + n2) i body s = (x <- for_loop n1 i body s ;; for_loop n2 (i + Z.of_nat n1) body x).
Proof.
  revert i s. induction n1 as [|n1 IH]; intros i s; cbn [Nat.add for_loop bind].
  - now rewrite Z.add_0_r.
  - destruct (body i s) as [x| | |]; cbn [bind]; [|reflexivity..]. rewrite IH.
    f_equal. replace (i + Z.of_nat (Datatypes.S n1)) with (i + 1 + Z.of_nat n1) by lia. reflexivity.
Qed.

(** The lines of complete rows, as a user writes them: the numbers, then
    anything starting with " #" up to the end of the line; [rows_text] also
    allows comment lines in between. *)
Theorem C42_short_row_rejected : forall (cfg : config) p t nr nc no ni nl np rows body row rest e,
  config_ok cfg -> supported cfg p -> printable_type t ->
  c_int nr -> c_int nc -> c_int no -> c_int ni -> c_int nl -> c_int np ->
  rows_text rows body -> short_lines body ->
  Forall (fun r => Forall (representable cfg p) r /\ zlength r = nc) rows ->
  zlength rows < nr ->
  row <> [] -> zlength row < nc -> Forall (representable cfg p) row ->
  (List.length (join (map print_Z row)) <= 2046)%nat ->
  osl_relation_pread (File (type_string t ++ c_nl :: dims_line (mkrel t p nr nc no ni nl np rows) ++ c_nl ::
    body ++ join (map print_Z row) ++ c_nl :: rest) e) p = Err.
Proof.
  intros cfg p t nr nc no ni nl np rows body row rest e Hcfg Hsup Ht Hnr Hnc Hno Hni Hnl Hnp Hb Hs Hrows Hlt Hne Hrl Hrr Hlen.
  set (r := mkrel t p nr nc no ni nl np rows).
  assert (Hplain := type_plain t).
  unfold osl_relation_pread, osl_relation_read_type_f.
  set (tail := dims_line r ++ c_nl :: body ++ join (map print_Z row) ++ c_nl :: rest).
  assert (Hread : osl_strings_read (File (type_string t ++ c_nl :: tail) e) = Ok (Some (Some [type_string t]), File tail e)).
  { pose proof (C28_file_roundtrip [type_string t] tail e (type_string t ++ [c_nl])) as X.
    rewrite <- app_assoc in X. cbn [app] in X. apply X.
    - discriminate.
    - constructor; [assumption|constructor].
    - unfold osl_strings_sprint. cbn [elems]. rewrite sprint_elems_ok by (constructor; [assumption|constructor]). reflexivity.
    - rewrite app_length. cbn [List.length]. assert (List.length (type_string t) <= 10)%nat; [|lia].
      unfold type_string. repeat match goal with |- context [if ?b then _ else _] => destruct b end; cbn; lia. }
  rewrite Hread. cbn [bind type_of_strings]. rewrite parse_print_type by assumption. cbn [bind].
  unfold tail. assert (Hd : int_dims r) by (unfold int_dims, r; cbn; tauto).
  pose proof (first_dims_f_one r [] (body ++ join (map print_Z row) ++ c_nl :: rest) e Hd cl_nil) as X.
  cbn [app] in X. rewrite X by (intros a l b E _; destruct a, l; discriminate || (cbn; lia)). clear X. cbn [bind].
  change (Z.to_nat (1 - 1)) with 0%nat. cbn [read_parts_f].
  assert (0 < nc) by (pose proof (zlength_nonneg row); destruct row; [congruence|rewrite zlength_cons in *; lia]).
  assert (0 < nr) by (pose proof (zlength_nonneg rows); lia).
  destruct (new_part_ok p t r Hsup) as (m & -> & M); [cbn; lia..|]. cbn [bind].
  unfold read_rows_f, cfor. cbn [nrows ncols rm with_m rtype rprec nout nin nloc npar r].
  destruct M as (_ & _ & _ & M). cbn [nrows ncols r] in M. destruct M as [Hml Hmf]; [lia|lia|].
  assert (Hn : List.length m = Z.to_nat nr) by (unfold zlength in Hml; lia).
  set (k := List.length rows).
  assert (Hk : (k < Z.to_nat nr)%nat) by (unfold zlength in Hlt; unfold k; lia).
  replace (Z.to_nat (nr - 0)) with (k + (1 + (Z.to_nat nr - k - 1)))%nat by lia.
  rewrite for_loop_app.
  rewrite <- (firstn_skipn k m).
  assert (Hfl : List.length (firstn k m) = k) by (rewrite firstn_length; lia).
  assert (Hf1 : Forall (fun row => zlength row = nc) (firstn k m)) by (rewrite <- (firstn_skipn k m) in Hmf; apply Forall_app in Hmf; tauto).
  assert (Hf2 : Forall (fun row => zlength row = nc) (skipn k m)) by (rewrite <- (firstn_skipn k m) in Hmf; apply Forall_app in Hmf; tauto).
  destruct (read_rows_loop_fB Hcfg p nc (join (map print_Z row) ++ c_nl :: rest) e (skipn k m) ltac:(lia)
    rows body [] (firstn k m) (Scratch None None) Hb Hs Hrows Hf1 Hfl) as (sc' & E).
  cbn [app] in E. change (zlength (@nil (list Z))) with 0 in E. fold k in E. rewrite E. clear E. cbn [bind].
  destruct (skipn k m) as [|jrow B] eqn:Ek.
  { apply (f_equal (@List.length (list Z))) in Ek. rewrite skipn_length in Ek. cbn in Ek. lia. }
  cbn [Nat.add for_loop]. destruct row as [|v row]; [congruence|].
  inversion Hf2 as [|? ? Hj _]; subst.
  assert (Hall : forall x, In x (v :: row) -> fits_buffer x).
  { intros x Hx. apply in_split in Hx. destruct Hx as (l1 & l2 & E). rewrite E in Hlen. unfold fits_buffer, zlength.
    assert (forall l, (List.length (print_Z x) <= List.length (join (map print_Z (x :: l))))%nat) as A1.
    { intros [|y l]; cbn [map]; [cbn [join]; lia|]. rewrite join_cons, app_length. lia. }
    assert (forall l, (List.length (print_Z x) <= List.length (join (map print_Z (l ++ x :: l2))))%nat) as A2.
    { induction l as [|y l IH]; [apply A1|]. cbn [app map].
      destruct (map print_Z (l ++ x :: l2)) as [|z zs] eqn:Ez; [destruct l; discriminate|].
      rewrite join_cons, app_length. cbn [List.length]. lia. }
    specialize (A2 l1). lia. }
  assert (Hnn : no_nl (join (map print_Z (v :: row)))).
  { clear. revert v. induction row as [|v' row IH]; intros v; cbn [map]; [cbn [join]; apply print_Z_no_nl|].
    rewrite join_cons. apply no_nl_app. split; [apply print_Z_no_nl|]. intros [E|Hi]; [discriminate|].
    exact (IH v' Hi). }
  pose proof (skip_file_row0 [] (join (map print_Z (v :: row))) rest e cl_nil) as X. cbn [app] in X.
  rewrite X; clear X.
  2: { intros a l b E _. destruct a, l; discriminate || (cbn; lia). }
  2: { assumption. }
  2: { assumption. }
  2: { destruct (print_Z_visible v) as (_ & c & t' & Hp & H1 & H2 & _). destruct row as [|v' row]; cbn [map].
       - cbn [join]. rewrite Hp. eauto.
       - rewrite join_cons, Hp. cbn [app]. eauto. }
  cbn [bind].
  assert (Hjl : (List.length (v :: row) < List.length jrow)%nat) by (unfold zlength in *; lia).
  replace (0 + Z.of_nat k) with (zlength rows) by (unfold k, zlength; lia).
  unfold read_cells at 1, cfor.
  replace (Z.to_nat (zlength jrow - 0)) with (S (List.length jrow - List.length (v :: row) - 1) + List.length (v :: row))%nat
    by (unfold zlength; lia).
  pose proof (read_cells_short Hcfg p rows B row v (List.length jrow - List.length (v :: row) - 1) [] jrow [] sc' Hrr) as X.
  cbn [app] in X. change (zlength (@nil Z)) with 0 in X. match goal with |- context [for_loop (S ?a + ?b) ?i ?f ?x] => replace (for_loop (S a + b) i f x) with (@Err (list (list Z) * str * scratch)) end.
  - reflexivity.
  - symmetry. apply X; [apply Forall_forall; exact Hall|lia|constructor].
Qed.
Print Assumptions C42_short_row_rejected.

(** The announced columns are missing on the first of two rows. *)
Example C42_ex : @osl_relation_pread lp64_debug (File (lit "DOMAIN" ++ c_nl :: lit "2 3 1 0 0 0" ++ c_nl ::
  lit "1 2" ++ c_nl :: lit "3 4 5" ++ c_nl :: lit "6 7 8" ++ [c_nl]) false) 64 = Err.
Proof. vm_compute. reflexivity. Qed.

(** With a blank at the end of the short row, the file reader duplicates the
    last coefficient instead of reporting the error. *)
Theorem C42_trailing_blank_refuted :
  @osl_relation_pread lp64_debug (File (lit "DOMAIN" ++ c_nl :: lit "1 3 1 0 0 0" ++ c_nl ::
    lit "1 2 " ++ [c_nl]) false) 64
  = Ok ([mkrel TYPE_DOMAIN 64 1 3 1 0 0 0 [[1; 2; 2]]], File [] false).
Proof. vm_compute. reflexivity. Qed.
Print Assumptions C42_trailing_blank_refuted.

(** The string reader completes a short row with the next line. *)
Theorem C42_string_refuted :
  @osl_relation_psread lp64_debug (lit "DOMAIN" ++ c_nl :: lit "1 3 1 0 0 0" ++ c_nl ::
    lit "1 2 " ++ c_nl :: lit "77 <tag>" ++ [c_nl]) 64
  = Ok ([mkrel TYPE_DOMAIN 64 1 3 1 0 0 0 [[1; 2; 77]]], lit " <tag>" ++ [c_nl]).
Proof. vm_compute. reflexivity. Qed.
Print Assumptions C42_string_refuted.
