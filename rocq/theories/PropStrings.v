(** * PropStrings: properties C28 and C29 (source/strings.c, source/names.c) *)
From Verif Require Import Base IntModel UtilModel TextSpec TextInt UtilProofs UtilProofs2 StringsModel.

(** ** Specification *)

(** A string that can stand in a list of the textual format: non-empty, without
    white space nor '#', and shorter than the library's buffers. *)
Definition plain_string (x : str) : Prop :=
  x <> [] /\ (List.length x < 2048)%nat /\ forall c, In c x -> is_space c = false /\ c <> c_hash.

(** Strings separated by single spaces. *)
Fixpoint join (l : list str) : str :=
  match l with
  | [] => []
  | [x] => x
  | x :: tl => x ++ [c_sp] ++ join tl
  end.

(** ** Lemmas *)
Lemma plain_tok x : plain_string x -> Forall (fun c => is_tok c = true) x.
Proof.
  intros (_ & _ & H). apply Forall_forall. intros c Hc. destruct (H c Hc) as [A B].
  unfold is_tok. apply ceqb_neq in B. now rewrite A, B.
Qed.
Lemma plain_store x : plain_string x -> buf_store x = Ok x.
Proof.
  intros (_ & H & _). unfold buf_store. destruct (Z.ltb_spec (zlength x) MAX_STRING) as [_|Hx]; [reflexivity|].
  unfold zlength, MAX_STRING in Hx. lia.
Qed.

Lemma sprint_elems_ok l : Forall plain_string l -> sprint_elems l = Ok (join l).
Proof.
  induction 1 as [|x l Hx Hl IH]; [reflexivity|]. cbn [sprint_elems].
  rewrite plain_store, IH by assumption. cbn [bind]. destruct l; [now rewrite !app_nil_r|reflexivity].
Qed.

Lemma join_cons x y l : join (x :: y :: l) = x ++ c_sp :: join (y :: l).
Proof. reflexivity. Qed.

Lemma count_tokens_ok l : Forall plain_string l -> l <> [] -> forall rest fuel n,
  (List.length (join l ++ c_nl :: rest) < fuel)%nat ->
  count_tokens fuel (join l ++ c_nl :: rest) n = Ok (n + zlength l).
Proof.
  induction 1 as [|x l Hx Hl IH]; intros Hne rest fuel n Hf; [congruence|].
  destruct fuel as [|k]; [lia|]. cbn [count_tokens]. destruct l as [|y l].
  - cbn [join]. rewrite span_exact; [|now apply plain_tok|reflexivity]. cbv iota beta.
    destruct x as [|c x]; [destruct Hx; congruence|]. cbn. f_equal.
  - rewrite join_cons in *. rewrite <- app_assoc in *. cbn [app] in *.
    rewrite span_exact; [|now apply plain_tok|reflexivity]. cbv iota beta.
    change (ceqb c_sp c_hash || ceqb c_sp c_nl) with false. cbv iota.
    rewrite IH; [|discriminate|rewrite app_length in Hf; cbn [List.length] in Hf; lia].
    destruct x as [|c x]; [destruct Hx; congruence|]. f_equal. unfold zlength. cbn [List.length]. lia.
Qed.

Lemma read_tokens_ok l : Forall plain_string l -> l <> [] -> forall rest,
  read_tokens (List.length l) (Some (join l ++ c_nl :: rest)) = Ok (l, Some rest).
Proof.
  induction 1 as [|x l Hx Hl IH]; intros Hne rest; [congruence|]. cbn [List.length read_tokens].
  destruct l as [|y l].
  - cbn [join]. rewrite span_exact; [|now apply plain_tok|reflexivity]. cbv iota beta.
    rewrite plain_store by assumption. reflexivity.
  - rewrite join_cons, <- app_assoc. cbn [app].
    rewrite span_exact; [|now apply plain_tok|reflexivity]. cbv iota beta.
    rewrite plain_store by assumption. cbn [bind]. change (ceqb c_sp c_hash) with false. cbv iota.
    rewrite IH by discriminate. reflexivity.
Qed.

Lemma join_meaningful l rest : Forall plain_string l -> l <> [] -> meaningful (join l ++ rest).
Proof.
  intros H Hne. destruct l as [|x l]; [congruence|]. inversion H; subst.
  destruct x as [|c x]; [destruct H2; congruence|]. destruct H2 as (_ & _ & Hc).
  destruct l; cbn; apply Hc; now left.
Qed.

Lemma strings_sread_ok l rest : Forall plain_string l -> l <> [] ->
  osl_strings_sread (join l ++ c_nl :: rest) = Ok (Some (Some l), Some rest).
Proof.
  intros H Hne. unfold osl_strings_sread. rewrite sskip_meaningful by now apply join_meaningful.
  cbn [bind]. rewrite count_tokens_ok by (auto; lia). cbn [bind].
  destruct (Z.ltb_spec 0 (0 + zlength l)) as [_|Hx]; [|unfold zlength in Hx; destruct l; [congruence|cbn in Hx; lia]].
  rewrite Z.add_0_l. unfold zlength. rewrite Nat2Z.id, read_tokens_ok by assumption. reflexivity.
Qed.

Lemma join_no_nl l : Forall plain_string l -> no_nl (join l).
Proof.
  assert (X : forall x, plain_string x -> no_nl x).
  { intros x (_ & _ & Hc) Hin. apply Hc in Hin as [Hin _]. discriminate. }
  induction 1 as [|x l Hx Hl IH]; [intros []|]. destruct l as [|y l]; [exact (X x Hx)|].
  rewrite join_cons. apply no_nl_app. split; [now apply X|]. intros [H|H]; [discriminate|]. now apply IH.
Qed.

(** ** C28: a printed string list reads back *)
Theorem C28_string_roundtrip : forall l rest, l <> [] -> Forall plain_string l ->
  exists text, osl_strings_sprint (Some (Some l)) = Ok text /\
    osl_strings_sread (text ++ rest) = Ok (Some (Some l), Some rest).
Proof.
  intros l rest Hne H. exists (join l ++ [c_nl]). split.
  - unfold osl_strings_sprint. cbn [elems]. rewrite sprint_elems_ok by assumption. reflexivity.
  - rewrite <- app_assoc. now apply strings_sread_ok.
Qed.
Print Assumptions C28_string_roundtrip.

(** From a stream, when the printed line fits one fgets. *)
Theorem C28_file_roundtrip : forall l rest e text, l <> [] -> Forall plain_string l ->
  osl_strings_sprint (Some (Some l)) = Ok text -> (List.length text <= 2047)%nat ->
  osl_strings_read (File (text ++ rest) e) = Ok (Some (Some l), File rest e).
Proof.
  intros l rest e text Hne H Ht Hlen. unfold osl_strings_sprint in Ht. cbn [elems] in Ht.
  rewrite sprint_elems_ok in Ht by assumption. cbn [bind] in Ht. injection Ht as <-.
  unfold osl_strings_read. rewrite <- app_assoc. cbn [app]. rewrite app_length in Hlen. cbn in Hlen.
  rewrite skip_file_line.
  - cbn [bind]. change [c_nl] with (c_nl :: []). rewrite strings_sread_ok by assumption. reflexivity.
  - now apply join_no_nl.
  - lia.
  - pose proof (join_meaningful l [] H Hne) as Hm. rewrite app_nil_r in Hm.
    destruct l as [|x l]; [congruence|]. inversion H; subst. destruct x as [|c x]; [destruct H2; congruence|].
    destruct l; cbn in Hm |- *; eexists; eexists; (split; [reflexivity|exact Hm]).
Qed.
Print Assumptions C28_file_roundtrip.

Example C28_hyp : [lit "i"; lit "A[i]"] <> [] /\ Forall plain_string [lit "i"; lit "A[i]"].
Proof.
  split; [discriminate|].
  constructor; [|constructor; [|constructor]];
    (split; [discriminate|]; split; [cbn; lia|]; intros c Hc;
     repeat (destruct Hc as [<-|Hc]; [split; [reflexivity|discriminate]|]); destruct Hc).
Qed.
Example C28_ex : osl_strings_sread (lit "# names" ++ [c_nl] ++ lit "i A[i] # c" ++ [c_nl]) =
  Ok (Some (Some [lit "i"; lit "A[i]"]), Some (lit "# c" ++ [c_nl])).
Proof. vm_compute. reflexivity. Qed.

(** Two separators in a row: an empty string appears and the last one is lost. *)
Theorem C28_double_space_refuted :
  osl_strings_sread (lit "a  b" ++ [c_nl]) = Ok (Some (Some [lit "a"; []]), Some (lit "b" ++ [c_nl])).
Proof. vm_compute. reflexivity. Qed.
Print Assumptions C28_double_space_refuted.
(** A list ending the input leaves the cursor beyond the terminating NUL. *)
Theorem C28_end_of_input_refuted : forall x, plain_string x ->
  osl_strings_sread x = Ok (Some (Some [x]), None).
Proof.
  intros x Hx. unfold osl_strings_sread.
  assert (Hm : meaningful x) by (destruct x as [|c x]; [exact I|]; destruct Hx as (_ & _ & Hc); apply Hc; now left).
  rewrite sskip_meaningful by assumption. cbn [bind].
  assert (Hsp : span is_tok x = (x, [])) by (apply span_all; now apply plain_tok).
  cbn [count_tokens]. rewrite Hsp.
  replace (match x with [] => 0 | _ => 0 + 1 end) with 1 by (destruct x; [destruct Hx; congruence|reflexivity]).
  cbn [bind]. change (0 <? 1) with true. cbv iota.
  change (Z.to_nat 1) with 1%nat. cbn [read_tokens]. rewrite Hsp, plain_store by assumption. reflexivity.
Qed.
Print Assumptions C28_end_of_input_refuted.
(** An empty list prints as an empty line, and the next line is read instead. *)
Theorem C28_empty_list_refuted : exists text,
  osl_strings_sprint (Some (Some [])) = Ok text /\
  osl_strings_sread (text ++ lit "next" ++ [c_nl]) = Ok (Some (Some [lit "next"]), Some []).
Proof. eexists. split; [reflexivity|]. vm_compute. reflexivity. Qed.
Print Assumptions C28_empty_list_refuted.
(** Reading strings at the end of a file is undefined. *)
Theorem C28_read_at_eof_refuted : osl_strings_read (File [] false) = UB.
Proof. vm_compute. reflexivity. Qed.
Print Assumptions C28_read_at_eof_refuted.
(** Printing a string of OSL_MAX_STRING characters overflows the buffer. *)
Theorem C28_long_string_refuted : forall x, (2048 <= List.length x)%nat ->
  osl_strings_sprint (Some (Some [x])) = UB.
Proof.
  intros x Hx. cbn. unfold buf_store. destruct (Z.ltb_spec (zlength x) MAX_STRING) as [H|_]; [|reflexivity].
  unfold zlength, MAX_STRING in H. lia.
Qed.
Print Assumptions C28_long_string_refuted.

(** ** C29: operations on string lists *)

Lemma str_eqb_eq a : forall b, str_eqb a b = true <-> a = b.
Proof.
  induction a as [|x a IH]; intros [|y b]; cbn; try (split; discriminate); [tauto|].
  rewrite andb_true_iff, ceqb_eq, IH. split; [intros [-> ->]; reflexivity|intros H; injection H as -> ->; auto].
Qed.

(** find: the index of the first occurrence, or the size. *)
Theorem C29_find : forall l x,
  let i := osl_strings_find (Some (Some l)) x in
  (In x l -> nth_error l (Z.to_nat i) = Some x /\ 0 <= i /\
             forall j, 0 <= j < i -> nth_error l (Z.to_nat j) <> Some x) /\
  (~ In x l -> i = osl_strings_size (Some (Some l))).
Proof.
  intros l x. cbn [osl_strings_find elems osl_strings_size].
  assert (G : forall l k, 0 <= k -> let i := find_loop l x k in
     (In x l -> nth_error l (Z.to_nat (i - k)) = Some x /\ k <= i /\
             forall j, 0 <= j < i - k -> nth_error l (Z.to_nat j) <> Some x) /\
     (~ In x l -> i = k + zlength l)).
  { clear l. induction l as [|y l IH]; intros k Hk; cbn [find_loop].
    - split; [intros []|]. intros _. unfold zlength. cbn. lia.
    - destruct (str_eqb y x) eqn:E.
      + apply str_eqb_eq in E. subst y. split.
        * intros _. rewrite Z.sub_diag. split; [reflexivity|]. split; [lia|]. intros j Hj. lia.
        * intros Hn. exfalso. apply Hn. now left.
      + destruct (IH (k + 1) ltac:(lia)) as [IH1 IH2]. split.
        * intros [->|Hin]; [assert (str_eqb x x = true) by (now apply str_eqb_eq); congruence|].
          destruct (IH1 Hin) as (A & B & C). split.
          { replace (Z.to_nat (find_loop l x (k + 1) - k)) with (S (Z.to_nat (find_loop l x (k + 1) - (k + 1)))) by lia. exact A. }
          split; [lia|]. intros j Hj. destruct (Z.eq_dec j 0) as [->|Hj0].
          { cbn. intros X. injection X as ->. assert (str_eqb x x = true) by now apply str_eqb_eq. congruence. }
          replace (Z.to_nat j) with (S (Z.to_nat (j - 1))) by lia. cbn. apply C. lia.
        * intros Hn. rewrite IH2; [|intros ?; apply Hn; now right]. unfold zlength. cbn [List.length]. lia. }
  destruct (G l 0 ltac:(lia)) as [G1 G2]. split.
  - intros Hin. destruct (G1 Hin) as (A & B & C). rewrite Z.sub_0_r in *. auto.
  - intros Hn. rewrite G2 by assumption. lia.
Qed.
Print Assumptions C29_find.

Theorem C29_add_size : forall s x,
  exists s', osl_strings_add (Some s) x = Ok s' /\ elems s' = elems s ++ [x] /\
    osl_strings_size (Some s') = osl_strings_size (Some s) + 1.
Proof.
  intros s x. eexists. split; [reflexivity|]. split; [reflexivity|]. destruct s as [l|]; cbn.
  - unfold zlength. rewrite app_length. cbn. lia.
  - reflexivity.
Qed.
Print Assumptions C29_add_size.

Theorem C29_size : forall s, osl_strings_size (Some s) = Z.of_nat (List.length (elems s)).
Proof. intros [l|]; reflexivity. Qed.
Print Assumptions C29_size.

(** equal: same elements in the same order. *)
Theorem C29_equal : forall a b, osl_strings_equal (Some a) (Some b) = true <-> elems a = elems b.
Proof.
  intros a b. cbn [osl_strings_equal]. rewrite !C29_size.
  assert (G : forall x y, (if Z.of_nat (List.length x) =? Z.of_nat (List.length y) then equal_loop x y else false) = true <-> x = y).
  { induction x as [|u x IH]; intros [|v y]; cbn [List.length equal_loop]; try (split; discriminate).
    - split; reflexivity.
    - destruct (Z.eqb_spec (Z.of_nat (S (List.length x))) (Z.of_nat (S (List.length y)))) as [E|E].
      + rewrite andb_true_iff, str_eqb_eq. specialize (IH y).
        destruct (Z.eqb_spec (Z.of_nat (List.length x)) (Z.of_nat (List.length y))); [|lia].
        rewrite IH. split; [intros [-> ->]; reflexivity|intros H; injection H as -> ->; auto].
      + split; [discriminate|]. intros H. injection H as -> ->. lia. }
  apply G.
Qed.
Print Assumptions C29_equal.
Theorem C29_equal_null : forall a, osl_strings_equal None (Some a) = false /\
  osl_strings_equal (Some a) None = false /\ osl_strings_equal None None = true.
Proof. auto. Qed.
Print Assumptions C29_equal_null.

Theorem C29_clone_equal : forall s, osl_strings_equal (osl_strings_clone s) s = true.
Proof.
  intros [s|]; [|reflexivity]. unfold osl_strings_clone. rewrite C29_size.
  destruct (Z.eqb_spec (Z.of_nat (List.length (elems s))) 0) as [E|E]; apply C29_equal; [|reflexivity].
  destruct (elems s); [reflexivity|cbn in E; lia].
Qed.
Print Assumptions C29_clone_equal.

Theorem C29_concatenation : forall s1 l2, exists s,
  osl_strings_add_strings (Some s1) (Some (Some l2)) = Ok (Some s) /\ elems s = elems s1 ++ l2.
Proof.
  intros s1 l2. unfold osl_strings_add_strings. unfold osl_strings_clone.
  rewrite C29_size. destruct (Z.eqb_spec (Z.of_nat (List.length (elems s1))) 0) as [E|E].
  - eexists. split; [reflexivity|]. destruct (elems s1); [reflexivity|cbn in E; lia].
  - eexists. split; reflexivity.
Qed.
Print Assumptions C29_concatenation.

(** generate: [n] names, the k-th (from 1) is the prefix followed by k, all distinct. *)
Lemma generate_nth prefix n : forall i k, (k < n)%nat ->
  nth_error (generate_loop prefix n i) k = Some (prefix ++ print_Z (i + Z.of_nat k + 1)).
Proof.
  induction n as [|n IH]; intros i k Hk; [lia|]. cbn [generate_loop]. destruct k as [|k].
  - cbn. do 2 f_equal. f_equal. lia.
  - cbn [nth_error]. rewrite IH by lia. do 2 f_equal. f_equal. lia.
Qed.
Lemma generate_length prefix n : forall i, List.length (generate_loop prefix n i) = n.
Proof. induction n; intros; cbn; auto. Qed.

Theorem C29_generate : forall prefix n, 0 <= n ->
  exists s, osl_strings_generate prefix n = Ok s /\ osl_strings_size (Some s) = n /\
    (forall k, 1 <= k <= n -> nth_error (elems s) (Z.to_nat (k - 1)) = Some (prefix ++ print_Z k)) /\
    NoDup (elems s).
Proof.
  intros prefix n Hn. unfold osl_strings_generate. destruct (Z.eqb_spec n 0) as [->|H0].
  - exists None. repeat split; [intros k Hk; lia|constructor].
  - destruct (Z.ltb_spec n 0); [lia|]. eexists. split; [reflexivity|]. cbn [osl_strings_size elems].
    split; [unfold zlength; rewrite generate_length; lia|]. split.
    + intros k Hk. rewrite generate_nth by lia. do 3 f_equal. lia.
    + apply NoDup_nth_error. intros i j Hi E. rewrite generate_length in Hi.
      rewrite generate_nth in E by assumption.
      destruct (Nat.lt_ge_cases j (Z.to_nat n)) as [Hj|Hj].
      * rewrite generate_nth in E by assumption. injection E as E. apply app_inv_head in E.
        apply print_Z_inj in E. lia.
      * assert (nth_error (generate_loop prefix (Z.to_nat n) 0) j = None) by (apply nth_error_None; rewrite generate_length; lia). congruence.
Qed.
Print Assumptions C29_generate.
Example C29_generate_ex : osl_strings_generate (lit "P") 2 = Ok (Some [lit "P1"; lit "P2"]).
Proof. vm_compute. reflexivity. Qed.
Theorem C29_generate_negative_refuted : forall prefix n, n < 0 -> osl_strings_generate prefix n = UB.
Proof.
  intros prefix n Hn. unfold osl_strings_generate. destruct (Z.eqb_spec n 0); [lia|]. destruct (Z.ltb_spec n 0); [reflexivity|lia].
Qed.
Print Assumptions C29_generate_negative_refuted.
