(** * PropUtil: properties C25, C26, C27, C37, C38, C41 (source/util.c) *)
From Verif Require Import Base IntModel UtilModel TextSpec TextInt UtilProofs UtilProofs2 UtilProofs3.

(** ** C25: blank and comment skipping *)

(** On every string the skipper returns, having passed over blanks and comments
    only, and stops at the end or at a meaningful character. *)
Theorem C25_string_skip_exact : forall s, exists p rest,
  osl_util_sskip_blank_and_comments s = Ok rest /\
  s = p ++ rest /\ skippable p rest /\ meaningful rest.
Proof.
  intros s. destruct (sskip_ok s) as (rest & H1 & H2 & p & H3 & H4). exists p, rest. auto.
Qed.
Print Assumptions C25_string_skip_exact.

(** Nothing else would have been a right answer: whatever way the text is split
    into skippable text and meaningful rest, the skipper returns that rest. *)
Theorem C25_string_skip_unique : forall p rest,
  skippable p rest -> meaningful rest ->
  osl_util_sskip_blank_and_comments (p ++ rest) = Ok rest.
Proof. exact sskip_eq. Qed.
Print Assumptions C25_string_skip_unique.

Theorem C25_string_skip_idempotent : forall s rest,
  osl_util_sskip_blank_and_comments s = Ok rest ->
  osl_util_sskip_blank_and_comments rest = Ok rest.
Proof.
  intros s rest H. destruct (sskip_ok s) as (r & H1 & H2 & _). rewrite H in H1. injection H1 as <-.
  now apply sskip_meaningful.
Qed.
Print Assumptions C25_string_skip_idempotent.

Example C25_ex : osl_util_sskip_blank_and_comments
   (lit "  # a comment" ++ [c_nl; c_tab] ++ lit "#" ++ [c_nl] ++ lit " x # y") = Ok (lit "x # y").
Proof. vm_compute. reflexivity. Qed.
Example C25_ex_hyp : skippable (lit " #c" ++ [c_nl; c_sp]) (lit "x") /\ meaningful (lit "x").
Proof.
  split; [left|split; [reflexivity|discriminate]]. apply bt_space; [reflexivity|].
  apply (bt_comment (lit "c") [c_sp]); [intros [H|[]]; discriminate|]. apply bt_space; [reflexivity|constructor].
Qed.

(** The stream version, on texts without over-long lines, stops at the same
    character as the string version, and returns the rest of that line: nothing
    useful is lost between the returned text and the new stream position.  NULL or
    an empty string is returned exactly when nothing useful is left. *)
Theorem C25_file_skip_agrees : forall f, short_lines (ftext f) ->
  exists o f', osl_util_skip_blank_and_comments f = Ok (o, f') /\
  match o with
  | Some (c :: l) =>
      osl_util_sskip_blank_and_comments (ftext f) = Ok ((c :: l) ++ ftext f') /\
      is_space c = false /\ c <> c_hash /\
      ((exists w, c :: l = w ++ [c_nl] /\ no_nl w) \/ (no_nl (c :: l) /\ ftext f' = [] /\ feof f' = true))
  | _ => osl_util_sskip_blank_and_comments (ftext f) = Ok [] /\ ftext f' = [] /\ feof f' = true
  end.
Proof.
  intros f H. destruct (skip_file_ok f H) as (o & f' & H1 & H2 & _). exists o, f'. split; assumption.
Qed.
Print Assumptions C25_file_skip_agrees.
Example C25_file_ex : osl_util_skip_blank_and_comments
   (File (lit "# one" ++ [c_nl; c_sp; c_nl] ++ lit "  12 13" ++ [c_nl] ++ lit "4") false) =
   Ok (Some (lit "12 13" ++ [c_nl]), File (lit "4") false).
Proof. vm_compute. reflexivity. Qed.
Example C25_file_hyp : short_lines (lit "# one" ++ [c_nl] ++ lit "12").
Proof.
  intros a b c E _. apply (f_equal (@List.length _)) in E. rewrite !app_length in E. cbn in E. lia.
Qed.

(** Without the restriction on line lengths the two disagree: 2050 blanks before
    a number make the stream version give an empty line. *)
Theorem C25_long_blank_line_refuted :
  ~ (forall f, exists o f', osl_util_skip_blank_and_comments f = Ok (o, f') /\
       (o = Some [] -> osl_util_sskip_blank_and_comments (ftext f) = Ok [])).
Proof.
  intros H. destruct (H (File (repeat c_sp (Z.to_nat 2050) ++ lit "7") false)) as (o & f' & H1 & H2).
  vm_compute in H1. injection H1 as <- <-. specialize (H2 eq_refl). vm_compute in H2. discriminate.
Qed.
Print Assumptions C25_long_blank_line_refuted.

(** ** C26: reading up to a delimiter *)

(** From a string: the text before the first occurrence, the cursor after it;
    NULL, with everything consumed, exactly when there is none. *)
Theorem C26_uptoflag_string : forall s flag, flag <> [] ->
  (forall a b, first_occurrence flag s a b -> osl_util_read_uptoflag_s s flag = (Some a, b)) /\
  (~ occurs flag s -> osl_util_read_uptoflag_s s flag = (None, [])).
Proof.
  intros s flag Hf. pose proof (uptoflag_s_ok s flag Hf) as H.
  destruct (osl_util_read_uptoflag_s s flag) as [[x|] r].
  - split.
    + intros a b Hab. destruct (first_occurrence_unique _ _ _ _ _ _ H Hab) as [-> ->]. reflexivity.
    + intros Hn. exfalso. apply Hn. exists x, r. apply H.
  - destruct H as [-> H]. split; [|reflexivity]. intros a b [E _]. exfalso. apply H. now exists a, b.
Qed.
Print Assumptions C26_uptoflag_string.

(** Every text has a first occurrence or none, so the two cases are exhaustive. *)
Theorem C26_uptoflag_string_total : forall s flag, flag <> [] ->
  (exists a b, first_occurrence flag s a b) \/ ~ occurs flag s.
Proof.
  intros s flag Hf. pose proof (uptoflag_s_ok s flag Hf) as H.
  destruct (osl_util_read_uptoflag_s s flag) as [[x|] r]; [left; now exists x, r|right; tauto].
Qed.
Print Assumptions C26_uptoflag_string_total.

(** From a file (opened, not yet at its end), same result, for flags without the
    byte 255, which stands for end-of-file in the buffer. *)
Theorem C26_uptoflag_file : forall s flag, flag <> [] -> ~ In (chr 255) flag ->
  (forall a b, first_occurrence flag s a b ->
     osl_util_read_uptoflag_f (File s false) flag = Ok (Some a, File b false)) /\
  (~ occurs flag s -> osl_util_read_uptoflag_f (File s false) flag = Ok (None, File [] true)).
Proof.
  intros s flag Hf H255. destruct (uptoflag_f_ok s flag Hf H255) as (o & [t e] & H1 & H2).
  rewrite H1. cbn in H2. destruct o as [x|].
  - destruct H2 as [H2 ->]. split.
    + intros a b Hab. destruct (first_occurrence_unique _ _ _ _ _ _ H2 Hab) as [-> ->]. reflexivity.
    + intros Hn. exfalso. apply Hn. exists x, t. apply H2.
  - destruct H2 as (H2 & -> & ->). split; [|reflexivity]. intros a b [E _]. exfalso. apply H2. now exists a, b.
Qed.
Print Assumptions C26_uptoflag_file.

(** Tags are the flags <name> and </name>. *)
Theorem C26_uptotag : forall s name a b,
  (first_occurrence (start_tag name) s a b -> osl_util_read_uptotag_s s name = (Some a, b)) /\
  (first_occurrence (end_tag name) s a b -> osl_util_read_uptoendtag_s s name = (Some a, b)).
Proof.
  intros s name a b. unfold osl_util_read_uptotag_s, osl_util_read_uptoendtag_s.
  split; intros H.
  - apply (C26_uptoflag_string s (start_tag name)); [discriminate|exact H].
  - apply (C26_uptoflag_string s (end_tag name)); [discriminate|exact H].
Qed.
Print Assumptions C26_uptotag.

(** A flag overlapping itself and the text: "aab" in "aaab". *)
Example C26_ex : osl_util_read_uptoflag_s (lit "xaaaby") (lit "aab") = (Some (lit "xa"), lit "y").
Proof. vm_compute. reflexivity. Qed.
Example C26_ex_hyp : first_occurrence (lit "ab") (lit "xabyab") (lit "x") (lit "yab").
Proof.
  split; [reflexivity|]. intros a b E. destruct a as [|c a]; [discriminate|]. cbn. lia.
Qed.

(** With an empty flag one character is swallowed. *)
Theorem C26_empty_flag_refuted :
  ~ (forall s flag a b, first_occurrence flag s a b -> osl_util_read_uptoflag_s s flag = (Some a, b)).
Proof.
  intros H. specialize (H (lit "x") [] [] (lit "x")). vm_compute in H.
  assert (first_occurrence [] (lit "x") [] (lit "x")) as F by (split; [reflexivity|intros; cbn; lia]).
  specialize (H F). discriminate.
Qed.
Print Assumptions C26_empty_flag_refuted.

(** osl_util_tag_content: the text between the first <name> and the first
    </name> after it, *minus its first character* (the newline after the tag in
    OpenScop files); NULL when either tag is missing. *)
Theorem C26_tag_content : forall s name before after x content post,
  first_occurrence (start_tag name) s before after ->
  first_occurrence (end_tag name) after (x :: content) post ->
  osl_util_tag_content (Some s) name = Ok (Some content).
Proof. intros. now rewrite (tag_content_found s name before after (x :: content) post). Qed.
Print Assumptions C26_tag_content.
Theorem C26_tag_content_missing : forall s name,
  (~ occurs (start_tag name) s ->
     osl_util_tag_content (Some s) name = Ok None) /\
  (forall before after, first_occurrence (start_tag name) s before after ->
     ~ occurs (end_tag name) after -> osl_util_tag_content (Some s) name = Ok None).
Proof.
  intros s name. split; [apply tag_content_no_start|]. intros before after. apply tag_content_no_end.
Qed.
Print Assumptions C26_tag_content_missing.
Example C26_tag_ex : osl_util_tag_content (Some (lit "ab<loop>" ++ [c_nl] ++ lit "1 2</loop>z")) (lit "loop")
  = Ok (Some (lit "1 2")).
Proof. vm_compute. reflexivity. Qed.

(** The documented result (everything between the tags) fails: the first character is lost,
    and an empty content runs past the end of the result buffer. *)
Theorem C26_tag_content_first_char_refuted :
  ~ (forall s name before after content post,
       first_occurrence (start_tag name) s before after ->
       first_occurrence (end_tag name) after content post ->
       osl_util_tag_content (Some s) name = Ok (Some content)).
Proof.
  intros H.
  specialize (H (lit "<a>x</a>") (lit "a") [] (lit "x</a>") (lit "x") []). vm_compute in H.
  assert (Some [] = Some ["x"%char] -> False) as D by discriminate. apply D.
  enough (@Ok (option str) (Some []) = Ok (Some ["x"%char])) as E by (injection E; intros E'; now rewrite E').
  apply H.
  - split; [reflexivity|]. intros; cbn; lia.
  - split; [reflexivity|]. intros [|c a'] b' E; [discriminate|cbn; lia].
Qed.
Print Assumptions C26_tag_content_first_char_refuted.
Theorem C26_tag_content_empty_refuted : forall s name before after post,
  first_occurrence (start_tag name) s before after ->
  first_occurrence (end_tag name) after [] post ->
  osl_util_tag_content (Some s) name = UB.
Proof. intros. now rewrite (tag_content_found s name before after [] post). Qed.
Print Assumptions C26_tag_content_empty_refuted.

(** ** C27: identifier substitution *)

(** For every expression and every array of (non-empty, alphanumeric)
    identifiers, the call returns; its result is obtained piece by piece from the
    expression, each piece being either a whole-word occurrence of an identifier,
    replaced by the placeholder of its first rank, or one character kept as is. *)
Theorem C27_substitution_pieces : forall e ids, Forall word ids ->
  exists pieces : list (str * str),
    osl_util_identifier_substitution e ids = Ok (concat (map snd pieces)) /\
    e = concat (map fst pieces) /\
    (forall l o r l', pieces = l ++ (o, r) :: l' ->
       substituted (fun j => print_Z (Z.of_nat j)) ids (concat (map fst l)) o (concat (map fst l')) r \/
       (r = o /\ List.length o = 1%nat)) /\
    (** and no whole-word occurrence of an identifier is left *)
    (forall before w after, e = before ++ w ++ after -> In w ids ->
       ~ ends_in_word before -> ~ starts_in_word after ->
       exists l r l', pieces = l ++ (w, r) :: l' /\ concat (map fst l) = before /\
         substituted (fun j => print_Z (Z.of_nat j)) ids before w after r).
Proof.
  intros e ids H. destruct (substitution_ok e ids H) as (p & H1 & H2 & H3 & H4).
  exists p. split; [assumption|]. split; [assumption|]. split; [exact H3|].
  intros before w after E Hin Hb Ha. destruct (H4 before w after) as (l & r & l' & X1 & X2 & X3); auto.
  { cbn. congruence. } { cbn. lia. }
  exists l, r, l'. auto.
Qed.
Print Assumptions C27_substitution_pieces.

(** Distinct ranks have distinct placeholders. *)
Theorem C27_placeholders_distinct : forall ids b b' o o' a a' r,
  substituted (fun j => print_Z (Z.of_nat j)) ids b o a r ->
  substituted (fun j => print_Z (Z.of_nat j)) ids b' o' a' r -> o = o'.
Proof.
  intros ids b b' o o' a a' r (j & [Hj _] & _ & _ & H) (j' & [Hj' _] & _ & _ & H').
  assert (E : print_Z (Z.of_nat j) = print_Z (Z.of_nat j')).
  { destruct H as [[_ ->]|[_ ->]], H' as [[_ H']|[_ H']]; cbn in H'; try discriminate;
      injection H' as H'; now apply app_inv_tail in H'. }
  apply print_Z_inj, Nat2Z.inj in E. subst. congruence.
Qed.
Print Assumptions C27_placeholders_distinct.

Example C27_ex : osl_util_identifier_substitution (lit "C[i+j]+=A[2*i]*B[ii];") [lit "i"; lit "j"]
  = Ok (lit "C[@0@+@1@]+=A[2*(@0@)]*B[ii];").
Proof. vm_compute. reflexivity. Qed.
Example C27_hyp : Forall word [lit "i"; lit "jj2"].
Proof.
  constructor; [|constructor; [|constructor]];
    (split; [discriminate|]; apply Forall_forall; intros c Hc; apply is_word_spec;
     repeat (destruct Hc as [<-|Hc]; [reflexivity|]); destruct Hc).
Qed.

(** An empty identifier followed by a separator makes the loop run forever. *)
Theorem C27_empty_identifier_refuted : forall fuel,
  subst_loop fuel (lit "+") [[]] 0 [] = OutOfFuel.
Proof.
  assert (H : forall fuel out, subst_loop fuel (lit "+") [[]] 0 out = OutOfFuel).
  { induction fuel as [|k IH]; intros out; [reflexivity|].
    change (subst_loop (S k) (lit "+") [[]] 0 out) with
      (subst_loop k (lit "+") [[]] 0 (out ++ placeholder 0 (osl_util_lazy_isolated_identifier (lit "+") [] 0))).
    apply IH. }
  intros fuel. apply H.
Qed.
Print Assumptions C27_empty_identifier_refuted.

(** ** C37: growing buffers *)

(** A buffer whose bookkeeping is right: the high-water mark is the number of
    bytes allocated and the string with its terminator fits. *)
Fixpoint strcat_history (b : buffer) (srcs : list str) : res buffer :=
  match srcs with
  | [] => Ok b
  | s :: tl => b' <- osl_util_safe_strcat b s ;; strcat_history b' tl
  end.

Theorem C37_strcat_history : forall srcs b,
  b_alloc b = b_hwm b -> zlength (b_str b) < b_alloc b ->
  exists b', strcat_history b srcs = Ok b' /\
    b_str b' = b_str b ++ concat srcs /\
    b_alloc b' = b_hwm b' /\ zlength (b_str b') < b_alloc b'.
Proof.
  induction srcs as [|s srcs IH]; intros b Ha Hl.
  - exists b. cbn. now rewrite app_nil_r.
  - cbn [strcat_history]. destruct (safe_strcat_ok b s (conj Ha Hl)) as (b1 & H1 & [H2 H3] & H4).
    rewrite H1. cbn [bind]. destruct (IH b1 H2 H3) as (b' & X1 & X2 & X3 & X4). exists b'.
    split; [assumption|]. split; [rewrite X2, H4; cbn; now rewrite app_assoc|]. auto.
Qed.
Print Assumptions C37_strcat_history.
Example C37_ex : exists b, strcat_history (Buffer 2048 [] 2048) [repeat "a"%char (Z.to_nat 3000); lit "bc"] = Ok b
  /\ zlength (b_str b) = 3002 /\ b_alloc b = 4096.
Proof.
  destruct (strcat_history (Buffer 2048 [] 2048) [repeat "a"%char (Z.to_nat 3000); lit "bc"]) as [b| | |] eqn:E;
    vm_compute in E; try discriminate. injection E as <-. eexists. split; [reflexivity|]. vm_compute. auto.
Qed.
(** The mark must be the allocated size: with a mark larger than the buffer the
    append overflows. *)
Theorem C37_wrong_mark_refuted :
  osl_util_safe_strcat (Buffer 4 (lit "abc") 2048) (lit "d") = UB.
Proof. vm_compute. reflexivity. Qed.
Print Assumptions C37_wrong_mark_refuted.

(** ** C38: precision selection *)
Lemma str_eqb_eq a : forall b, str_eqb a b = true <-> a = b.
Proof.
  induction a as [|x a IH]; intros [|y b]; cbn; try (split; [discriminate|discriminate]); [tauto|].
  rewrite andb_true_iff, ceqb_eq, IH. split; [intros [-> ->]; reflexivity|intros H; injection H as -> ->; auto].
Qed.
Theorem C38_precision : forall (cfg : config) (env : option str),
  let best := if gmp cfg then PRECISION_MP else PRECISION_DP in
  osl_util_get_precision env =
    match env with
    | None => best
    | Some e => if list_eq_dec ascii_dec e (lit "32") then PRECISION_SP
                else if list_eq_dec ascii_dec e (lit "64") then PRECISION_DP
                else best
    end.
Proof.
  intros cfg env best. unfold osl_util_get_precision. fold best. destruct env as [e|]; [|reflexivity].
  destruct (list_eq_dec ascii_dec e (lit "32")) as [->|N]; [reflexivity|].
  destruct (str_eqb e (lit "32")) eqn:E1; [apply str_eqb_eq in E1; congruence|].
  destruct (list_eq_dec ascii_dec e (lit "64")) as [->|N2]; [reflexivity|].
  destruct (str_eqb e (lit "64")) eqn:E2; [apply str_eqb_eq in E2; congruence|].
  destruct (str_eqb e (lit "0")); reflexivity.
Qed.
Print Assumptions C38_precision.
(** The result is always a precision the build can handle. *)
Theorem C38_precision_supported : forall (cfg : config) (env : option str),
  let p := osl_util_get_precision env in
  p = PRECISION_SP \/ p = PRECISION_DP \/ (p = PRECISION_MP /\ gmp cfg = true).
Proof.
  intros cfg env p. unfold p. rewrite C38_precision. cbv zeta. destruct (gmp cfg) eqn:G; destruct env;
    try destruct (list_eq_dec _ _ _); try destruct (list_eq_dec _ _ _); auto.
Qed.
Print Assumptions C38_precision_supported.
Example C38_ex : @osl_util_get_precision lp64_nogmp (Some (lit "0")) = PRECISION_DP
  /\ @osl_util_get_precision lp64_debug (Some (lit "junk")) = PRECISION_MP.
Proof. split; reflexivity. Qed.

(** ** C41: the stream and string readers agree *)

Lemma tok_split l : exists t r, span is_tok l = (t, r) /\ l = t ++ r /\
  Forall (fun c => is_tok c = true) t /\ head_not is_tok r.
Proof.
  pose proof (span_split is_tok l). pose proof (span_fst is_tok l). pose proof (span_snd is_tok l).
  destruct (span is_tok l) as [t r]. exists t, r. auto.
Qed.

Lemma scan_digits_value t r : Forall (fun c => is_tok c = true) t -> head_not is_tok r ->
  forall acc, fst (scan_digits (t ++ r) acc) = fst (scan_digits t acc).
Proof.
  intros Ht Hr. induction Ht as [|c t Hc Ht IH]; intros acc.
  - destruct r as [|d r]; [reflexivity|]. cbn [app scan_digits]. cbn in Hr. unfold is_tok in Hr.
    destruct (is_digit d) eqn:E; [|reflexivity]. exfalso.
    rewrite (digit_not_space d E) in Hr. cbn in Hr. apply negb_false_iff, ceqb_eq in Hr. subst. discriminate.
  - cbn [app scan_digits]. destruct (is_digit c); [apply IH|reflexivity].
Qed.

Lemma not_tok_not_digit r : head_not is_tok r -> match r with d :: _ => is_digit d = false | [] => True end.
Proof.
  destruct r as [|d r]; [auto|]. cbn. unfold is_tok. intros Hr. destruct (is_digit d) eqn:E; [|reflexivity]. exfalso.
  rewrite (digit_not_space d E) in Hr. cbn in Hr. apply negb_false_iff, ceqb_eq in Hr. subst. discriminate.
Qed.

Lemma scan_int_token c t r : Forall (fun c => is_tok c = true) (c :: t) -> head_not is_tok r ->
  scan_int ((c :: t) ++ r) = scan_int (c :: t).
Proof.
  intros Ht Hr. inversion Ht; subst. unfold scan_int, scan_Z.
  assert (Hsp : is_space c = false) by (unfold is_tok in H1; destruct (is_space c); [discriminate|reflexivity]).
  cbn [app]. rewrite !skip_spaces_nonspace by assumption.
  assert (K : forall body (neg : bool), Forall (fun c => is_tok c = true) body ->
     match (match body ++ r with
     | d :: _ => if is_digit d then let '(v, rest) := scan_digits (body ++ r) 0 in Some (Some ((if neg then - v else v), rest)) else Some None
     | [] => Some None end) with Some (Some (v, _)) => if fits 32 v then Ok v else UB | _ => Err end =
     match (match body with
     | d :: _ => if is_digit d then let '(v, rest) := scan_digits body 0 in Some (Some ((if neg then - v else v), rest)) else Some None
     | [] => Some None end) with Some (Some (v, _)) => if fits 32 v then Ok v else UB | _ => Err end).
  { intros body neg Hb. destruct body as [|d body].
    - cbn [app]. pose proof (not_tok_not_digit r Hr) as Hd. destruct r as [|d r]; [reflexivity|]. rewrite Hd. reflexivity.
    - cbn [app]. destruct (is_digit d); [|reflexivity].
      pose proof (scan_digits_value (d :: body) r Hb Hr 0) as Hv.
      cbn [app] in Hv. destruct (scan_digits (d :: body ++ r) 0) as [v1 r1], (scan_digits (d :: body) 0) as [v2 r2].
      cbn in Hv. subst. reflexivity. }
  destruct (ceqb c c_minus); [exact (K t true H2)|]. destruct (ceqb c c_plus); [exact (K t false H2)|].
  exact (K (c :: t) false Ht).
Qed.

(** On a text without over-long lines, a first meaningful line is read by both
    forms of osl_util_read_int with the same result: same value or both fail. *)
Theorem C41_read_int_agrees : forall s e rest, short_lines s ->
  osl_util_sskip_blank_and_comments s = Ok rest -> rest <> [] ->
  match osl_util_read_int_s s, osl_util_read_int_f (File s e) with
  | Ok (v, _), Ok (v', _) => v = v'
  | Err, Err => True
  | UB, UB => True
  | _, _ => False
  end.
Proof.
  intros s e rest Hs Hsk Hne. destruct (skip_file_ok (File s e) Hs) as (o & f' & H1 & H2 & _).
  unfold osl_util_read_int_s, osl_util_read_int_f. rewrite H1, Hsk. cbn [bind ftext] in *.
  unfold skip_result in H2. destruct o as [[|c l]|]; try (destruct H2 as [H2 _]; congruence).
  destruct H2 as (H2 & Hc & Hh & Hend). rewrite Hsk in H2. injection H2 as ->.
  destruct (tok_split (c :: l)) as (t & r & Ht & Hl & Hft & Hr).
  assert (Hts : exists r', span is_tok ((c :: l) ++ ftext f') = (t, r')).
  { destruct r as [|d r].
    - rewrite app_nil_r in Hl. destruct Hend as [(w & Hw & _)|(_ & -> & _)].
      + exfalso. rewrite <- Hl, Hw in Hft. apply Forall_app in Hft as [_ Hft]. inversion Hft; subst. discriminate.
      + exists []. rewrite app_nil_r, Hl. apply span_all. assumption.
    - exists ((d :: r) ++ ftext f'). rewrite Hl, <- app_assoc. apply span_exact; [assumption|exact Hr]. }
  destruct Hts as [r' Hts]. cbn [app] in Hts |- *. rewrite Hts. cbn [bind].
  destruct t as [|c' t].
  { exfalso. cbn [app] in Hl. subst r. cbn in Hr. unfold is_tok in Hr. rewrite Hc in Hr. cbn in Hr.
    apply negb_false_iff, ceqb_eq in Hr. congruence. }
  assert (Hlen : (List.length (c' :: t) <= 2046)%nat).
  { destruct (sskip_ok s) as (rest2 & Hr2 & _ & p & Hp & _). rewrite Hsk in Hr2. injection Hr2 as <-.
    apply (Hs p (c' :: t) r').
    - rewrite Hp. f_equal. pose proof (span_split is_tok (c :: l ++ ftext f')) as X. rewrite Hts in X. exact X.
    - intros Hin. rewrite Forall_forall in Hft. specialize (Hft _ Hin). discriminate. }
  unfold buf_store. destruct (Z.ltb_spec (zlength (c' :: t)) MAX_STRING) as [_|Hx]; [|unfold zlength, MAX_STRING in Hx; lia].
  cbn [bind]. rewrite Hl, scan_int_token by assumption.
  assert (Hnf : scan_int (c' :: t) <> OutOfFuel).
  { unfold scan_int. destruct (scan_Z (c' :: t)) as [[[v x]|]|]; try discriminate. destruct (fits 32 v); discriminate. }
  destruct (scan_int (c' :: t)); cbn; auto.
Qed.
Print Assumptions C41_read_int_agrees.
Example C41_ex : osl_util_read_int_s (lit "#c" ++ [c_nl] ++ lit " -12#x") = Ok (-12, lit "#x")
  /\ osl_util_read_int_f (File (lit "#c" ++ [c_nl] ++ lit " -12#x") false) = Ok (-12, File [] true).
Proof. split; vm_compute; reflexivity. Qed.

(** With nothing to read, the two differ: the string form reports an error, the
    stream form passes NULL to sscanf. *)
Theorem C41_read_int_eof_refuted :
  osl_util_read_int_s [] = Err /\ osl_util_read_int_f (File [] false) = UB.
Proof. split; vm_compute; reflexivity. Qed.
Print Assumptions C41_read_int_eof_refuted.

(** osl_util_read_line: on a line below the limit, both forms return the
    characters up to the newline or '#'. *)
Theorem C41_read_line_agrees : forall s e rest, short_lines s ->
  osl_util_sskip_blank_and_comments s = Ok rest -> rest <> [] ->
  exists l r f', osl_util_read_line_s s = Ok (l, r) /\ osl_util_read_line_f (File s e) = Ok (l, f') /\
    rest = l ++ r /\ (forall c, In c l -> c <> c_nl /\ c <> c_hash) /\
    match r with [] => True | c :: _ => c = c_nl \/ c = c_hash end.
Proof.
  intros s e rest Hs Hsk Hne. destruct (skip_file_ok (File s e) Hs) as (o & f' & H1 & H2 & _).
  unfold osl_util_read_line_s, osl_util_read_line_f. rewrite H1, Hsk. cbn [bind ftext] in *.
  unfold skip_result in H2. destruct o as [[|c l]|]; try (destruct H2 as [H2 _]; congruence).
  destruct H2 as (H2 & Hc & Hh & Hend). rewrite Hsk in H2. injection H2 as ->.
  pose proof (span_split in_line (c :: l)) as E1. pose proof (span_fst in_line (c :: l)) as E2.
  pose proof (span_snd in_line (c :: l)) as E3.
  destruct (span in_line (c :: l)) as [t r]. cbn [fst snd] in *.
  assert (Hts : exists r', span in_line ((c :: l) ++ ftext f') = (t, r')).
  { destruct r as [|d r].
    - rewrite app_nil_r in E1. destruct Hend as [(w & Hw & _)|(_ & -> & _)].
      + exfalso. rewrite <- E1, Hw in E2. apply Forall_app in E2 as [_ E2]. inversion E2; subst. discriminate.
      + exists []. rewrite app_nil_r, E1. apply span_all. assumption.
    - exists ((d :: r) ++ ftext f'). rewrite E1, <- app_assoc. apply span_exact; [assumption|exact E3]. }
  destruct Hts as [r' Hts]. cbn [app] in Hts |- *. rewrite Hts.
  pose proof (span_split in_line (c :: l ++ ftext f')) as X. rewrite Hts in X. cbn [fst snd] in X.
  pose proof (span_snd in_line (c :: l ++ ftext f')) as X2. rewrite Hts in X2. cbn [snd] in X2.
  assert (Hlen : (List.length t <= 2046)%nat).
  { destruct (sskip_ok s) as (rest2 & Hr2 & _ & p & Hp & _). rewrite Hsk in Hr2. injection Hr2 as <-.
    apply (Hs p t r').
    - rewrite Hp. f_equal. exact X.
    - intros Hin. rewrite Forall_forall in E2. specialize (E2 _ Hin). discriminate. }
  unfold buf_store. destruct (Z.ltb_spec (zlength t) MAX_STRING) as [_|Hx]; [|unfold zlength, MAX_STRING in Hx; lia].
  cbn [bind]. exists t, r', f'. split; [reflexivity|]. split; [reflexivity|]. split; [exact X|]. split.
  - intros x Hin. rewrite Forall_forall in E2. specialize (E2 _ Hin). unfold in_line in E2.
    apply andb_true_iff in E2 as [A B]. apply negb_true_iff in A, B. split; apply ceqb_neq; assumption.
  - destruct r' as [|d r']; [exact I|]. cbn in X2. unfold in_line in X2.
    destruct (ceqb d c_nl) eqn:A; [left; now apply ceqb_eq|]. cbn in X2. right. apply ceqb_eq. now apply negb_false_iff in X2.
Qed.
Print Assumptions C41_read_line_agrees.
(** A string-mode line of OSL_MAX_STRING characters or more is written out of bounds. *)
Theorem C41_read_line_overflow_refuted : forall l r,
  2048 <= zlength l -> (forall c, In c l -> c <> c_nl /\ c <> c_hash) -> meaningful l ->
  osl_util_read_line_s (l ++ c_nl :: r) = UB.
Proof.
  intros l r Hl Hin Hm. unfold osl_util_read_line_s. rewrite sskip_meaningful.
  - cbn [bind]. rewrite span_exact; [|apply Forall_forall|reflexivity].
    + unfold buf_store. destruct (Z.ltb_spec (zlength l) MAX_STRING) as [Hx|_]; [unfold MAX_STRING in Hx; lia|reflexivity].
    + intros c Hc. destruct (Hin c Hc) as [A B]. unfold in_line. apply ceqb_neq in A, B. now rewrite A, B.
  - destruct l as [|c l]; [unfold zlength in Hl; cbn in Hl; lia|exact Hm].
Qed.
Print Assumptions C41_read_line_overflow_refuted.
Example C41_overflow_hyp : let l := repeat "a"%char (Z.to_nat 2048) in
  2048 <= zlength l /\ (forall c, In c l -> c <> c_nl /\ c <> c_hash) /\ meaningful l.
Proof.
  cbv zeta. split; [unfold zlength; rewrite repeat_length; lia|]. split.
  - intros c Hc. apply repeat_spec in Hc. subst. split; discriminate.
  - vm_compute. split; [reflexivity|discriminate].
Qed.
