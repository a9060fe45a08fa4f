(** * ReadProofs2: relations and the data of the extensions (C58) *)
From Verif Require Import Base IntModel Spec RelSpec LoopLemmas IntProofs TextSpec UtilModel UtilProofs PropUtil StringsModel
  RelationModel RelationProofs RelTextModel RelTextProofs ExtModel ScopModel ReadSpec ReadProofs.

Section REL.
Context {cfg : config} (Hcfg : config_ok cfg).

Lemma parse_type_safe t : safe (fun v => In v named_types) (parse_type t).
Proof.
  unfold parse_type, named_types. repeat (match goal with |- safe _ (if ?b then _ else _) => destruct b end; [cbn; tauto|]). exact I.
Qed.
Lemma type_of_strings_safe o : safe (fun v => In v named_types) (type_of_strings o).
Proof. unfold type_of_strings. destruct o as [[[|x l]|]|]; try exact I. apply parse_type_safe. Qed.
Lemma read_type_safe s : safe (fun x => In (fst x) named_types /\ opt_rest (snd x) s) (osl_relation_read_type_s s).
Proof.
  unfold osl_relation_read_type_s. eapply safe_bind; [apply strings_safe|]. intros [o e] [_ H].
  eapply safe_bind; [apply type_of_strings_safe|]. intros t Ht. now apply safe_ok.
Qed.
Lemma fread_type_safe f : safe (fun x => In (fst x) named_types /\ frest (snd x) f) (osl_relation_read_type_f f).
Proof.
  unfold osl_relation_read_type_f. eapply safe_bind; [apply fstrings_safe|]. intros [o e] [_ H].
  eapply safe_bind; [apply type_of_strings_safe|]. intros t Ht. now apply safe_ok.
Qed.
Lemma scan_ints_safe : forall n s, safe (fun _ => True) (scan_ints n s).
Proof.
  induction n as [|n IH]; intros s; cbn [scan_ints]; [exact I|]. destruct (scan_Z s) as [[[v r]|]|]; try exact I.
  destruct (fits 32 v); [|exact I]. eapply safe_bind; [apply IH|]. intros l _. exact I.
Qed.

(** A coefficient *)
Lemma int_sread_safe t p old : representable cfg p old -> safe (fun x => representable cfg p (snd x)) (osl_int_sread t p old).
Proof.
  intros Ho. unfold osl_int_sread, osl_int_sscanf, pswitch. destruct (is_fixed p) eqn:E1; [|destruct (is_mp p) eqn:E2; [|exact I]].
  - destruct (scan_Z t) as [[[v r]|]|]; try exact I; try exact Ho. destruct (fits (pbits p) v) eqn:F; [|exact I]. cbn [safe snd].
    apply fits_prop in F. unfold smin, smax, pbits in F. unfold is_fixed in E1. apply orb_true_iff in E1.
    destruct E1 as [E1|E1]; apply Z.eqb_eq in E1; subst p; [left|right; left]; (split; [reflexivity|]); exact F.
  - destruct (scan_Z t) as [[[v r]|]|]; try exact I; try exact Ho. cbn [safe snd]. right. right.
    unfold is_mp in E2. apply andb_true_iff in E2. destruct E2 as [E2 G]. apply Z.eqb_eq in E2. now split.
Qed.
Lemma read_cell_safe p c sc old : representable cfg p old ->
  safe (fun x => representable cfg p (fst (fst x)) /\ rest_of (snd (fst x)) c) (read_cell p c sc old).
Proof.
  intros Ho. unfold read_cell. destruct (skip_spaces c) as [|d c1] eqn:E.
  - destruct (sc_str sc), (sc_n sc); try exact I. eapply safe_bind; [apply int_sread_safe; exact Ho|]. intros [u v] Hv.
    destruct (Nat.leb _ _); [|exact I]. split; [exact Hv|]. apply rest_skipn.
  - destruct (span not_space (d :: c1)) as [t r] eqn:Es. eapply safe_bind; [apply buf_store_safe|]. intros t' ->.
    eapply safe_bind; [apply int_sread_safe; exact Ho|]. intros [u v] Hv. split; [exact Hv|]. cbn [fst snd].
    apply span_rest in Es. eapply rest_trans; [|apply rest_spaces]. rewrite E, Es. apply rest_app.
Qed.

(** The matrix *)
Definition filled (p R C : Z) (m : list (list Z)) : Prop :=
  mat R C m /\ forall i j, 0 <= i < R -> 0 <= j < C -> representable cfg p (cell m i j).
Lemma filled_set p R C m i j v m' : filled p R C m -> representable cfg p v -> 0 <= i < R -> 0 <= j < C ->
  mset m i j v = Ok m' -> filled p R C m'.
Proof.
  intros [M H] Hv Hi Hj E. destruct (mset_ok R C m i j v M Hi Hj) as (m1 & E1 & M1 & C1).
  assert (m1 = m') by congruence. subst m1. split; [exact M1|]. intros a b Ha Hb. rewrite C1 by lia. destruct (_ && _); auto.
Qed.
Lemma read_cells_safe p R C i m c sc : 0 <= i < R -> filled p R C m ->
  safe (fun x => filled p R C (fst (fst x)) /\ rest_of (snd (fst x)) c) (read_cells p i C m c sc).
Proof.
  intros Hi Hm. unfold read_cells. apply (safe_cfor (fun x => filled p R C (fst (fst x)) /\ rest_of (snd (fst x)) c)).
  - split; [exact Hm|apply rest_refl].
  - intros j [[m1 c1] sc1] Hj [H1 H2]. cbn [fst snd] in H1, H2.
    destruct (match c1 with [] => false | ch :: _ => ceqb ch c_hash || ceqb ch c_nl end); [exact I|].
    rewrite (mget_ok R C) by (try assumption; apply H1). cbn [bind].
    eapply safe_bind; [apply read_cell_safe; apply H1; assumption|]. intros [[v c2] sc2] [Hv Hc]. cbn [fst snd] in Hv, Hc.
    destruct (mset m1 i j v) as [m2| | |] eqn:E.
    + cbn. split; [eapply filled_set; eassumption|]. eapply rest_trans; eassumption.
    + exact I.
    + exact I.
    + destruct (mset_ok R C m1 i j v (proj1 H1) Hi Hj) as (m3 & E3 & _). congruence.
Qed.
Lemma read_rows_f_safe p r f sc : filled p (nrows r) (ncols r) (rm r) ->
  safe (fun x => frest (snd (fst x)) f /\ exists m, fst (fst x) = with_m r (nrows r) (ncols r) m /\ filled p (nrows r) (ncols r) m)
    (read_rows_f p r f sc).
Proof.
  intros Hm. unfold read_rows_f. eapply safe_bind.
  - apply (safe_cfor (fun x => filled p (nrows r) (ncols r) (fst (fst x)) /\ frest (snd (fst x)) f)).
    + split; [exact Hm|apply frest_refl].
    + intros i [[m g] sc1] Hi [H1 H2]. cbn [fst snd] in H1, H2. eapply safe_bind; [apply fskip_safe|]. intros [[c|] g'] [Hg _]; [|exact I].
      eapply safe_bind; [apply (read_cells_safe p (nrows r)); [exact Hi|exact H1]|]. intros [[m2 c2] sc2] [Hm2 _]. apply safe_ok. cbn [fst snd] in *.
      split; [exact Hm2|]. eapply frest_trans; eassumption.
  - intros [[m g] sc1] [H1 H2]. apply safe_ok. cbn [fst snd] in *. split; [exact H2|]. now exists m.
Qed.
Lemma read_rows_s_safe p r s sc : filled p (nrows r) (ncols r) (rm r) ->
  safe (fun x => rest_of (snd (fst x)) s /\ exists m, fst (fst x) = with_m r (nrows r) (ncols r) m /\ filled p (nrows r) (ncols r) m)
    (read_rows_s p r s sc).
Proof.
  intros Hm. unfold read_rows_s. eapply safe_bind.
  - apply (safe_cfor (fun x => filled p (nrows r) (ncols r) (fst (fst x)) /\ rest_of (snd (fst x)) s)).
    + split; [exact Hm|apply rest_refl].
    + intros i [[m g] sc1] Hi [H1 H2]. cbn [fst snd] in H1, H2. eapply safe_bind; [apply skip_safe|]. intros g' Hg.
      eapply safe_mono; [apply (read_cells_safe p (nrows r)); [exact Hi|exact H1]|]. intros [[m2 c2] sc2] [Hm2 Hc2]. cbn [fst snd] in *.
      split; [exact Hm2|]. eapply rest_trans; [exact Hc2|]. eapply rest_trans; eassumption.
  - intros [[m g] sc1] [H1 H2]. apply safe_ok. cbn [fst snd] in *. split; [exact H2|]. now exists m.
Qed.

(** One part *)
Lemma new_part_safe p type d : supported cfg p ->
  safe (fun r => rtype r = type /\ rprec r = p /\ filled p (nrows r) (ncols r) (rm r)) (new_part p type d).
Proof.
  intros Hp. unfold new_part. destruct d as [|nr [|nc [|o [|i [|l [|q [|]]]]]]]; try exact I.
  destruct (Z.ltb_spec nr 0) as [Hr|Hr]; [|destruct (Z.ltb_spec nc 0) as [Hc|Hc]].
  - unfold osl_relation_pmalloc. destruct (_ && _); [exact I|]. rewrite (proj2 (Z.ltb_lt _ _) Hr). exact I.
  - unfold osl_relation_pmalloc. destruct (_ && _); [exact I|]. rewrite (proj2 (Z.ltb_lt nc 0) Hc), orb_true_r. exact I.
  - destruct (pmalloc_ok p nr nc Hp Hr Hc) as (m & E & M & Z0). rewrite E. apply safe_ok. cbn [rtype rprec nrows ncols rm].
    split; [reflexivity|]. split; [reflexivity|]. split; [exact M|]. intros a b Ha Hb. rewrite Z0 by assumption.
    now apply representable_zero.
Qed.
Lemma filled_wf r m : supported cfg (rprec r) -> filled (rprec r) (nrows r) (ncols r) m -> wf_rel cfg (with_m r (nrows r) (ncols r) m).
Proof.
  intros Hp [M H]. destruct M as (HR & HC & HZ & HM). unfold wf_rel, with_m. cbn [rprec nrows ncols rm].
  split; [exact Hp|]. split; [exact HR|]. split; [exact HC|]. split; [exact HZ|]. split; [exact HM|].
  destruct (Z.eq_dec (nrows r) 0) as [E|E]; [rewrite HZ by auto; constructor|].
  destruct (Z.eq_dec (ncols r) 0) as [E'|E']; [rewrite HZ by auto; constructor|].
  destruct HM as [HM HF]; [lia|lia|]. apply (Forall_znth _ []). intros i Hi. apply (Forall_znth _ 0). intros j Hj.
  rewrite (Forall_znth _ []) in HF. rewrite HF in Hj by assumption. apply (H i j); lia.
Qed.
Definition part_read (p : Z) (r : relation) : Prop := wf_rel cfg r /\ rprec r = p.
Lemma frow_part p type d f sc : supported cfg p ->
  safe (fun x => frest (snd (fst x)) f /\ part_read p (fst (fst x)) /\ rtype (fst (fst x)) = type)
    (r <- new_part p type d ;; read_rows_f p r f sc).
Proof.
  intros Hp. eapply safe_bind; [apply new_part_safe; exact Hp|]. intros r (Ht & Hq & Hf).
  eapply safe_mono; [apply read_rows_f_safe; exact Hf|]. intros [[r' g] sc'] (Hg & m & Hr & Hm). cbn [fst snd] in *. subst r' p.
  split; [exact Hg|]. split; [|exact Ht]. split; [now apply filled_wf|reflexivity].
Qed.
Lemma srow_part p type d s sc : supported cfg p ->
  safe (fun x => rest_of (snd (fst x)) s /\ part_read p (fst (fst x)) /\ rtype (fst (fst x)) = type)
    (r <- new_part p type d ;; read_rows_s p r s sc).
Proof.
  intros Hp. eapply safe_bind; [apply new_part_safe; exact Hp|]. intros r (Ht & Hq & Hf).
  eapply safe_mono; [apply read_rows_s_safe; exact Hf|]. intros [[r' g] sc'] (Hg & m & Hr & Hm). cbn [fst snd] in *. subst r' p.
  split; [exact Hg|]. split; [|exact Ht]. split; [now apply filled_wf|reflexivity].
Qed.
Lemma fread_dims_safe f : safe (fun x => frest (snd x) f) (read_dims_f f).
Proof.
  unfold read_dims_f. eapply safe_bind; [apply fskip_safe|]. intros [[l|] f'] [H _]; [|exact I].
  eapply safe_bind; [apply scan_ints_safe|]. intros d _. exact H.
Qed.
Lemma fnext_dims_safe f : safe (fun x => frest (snd x) f) (next_dims_f f).
Proof. unfold next_dims_f. eapply safe_bind; [apply fread_dims_safe|]. intros [d f'] H. destruct (Nat.eqb _ _); [exact H|exact I]. Qed.
Lemma ffirst_dims_safe f : safe (fun x => frest (snd x) f) (first_dims_f f).
Proof.
  unfold first_dims_f. eapply safe_bind; [apply fread_dims_safe|]. intros [d f'] H. cbn [snd] in H.
  assert (G : forall d : list Z, safe (fun x => frest (snd x) f) (if Nat.eqb (List.length d) 6 then Ok (1, d, f') else Err))
    by (intros e; destruct (Nat.eqb _ _); [exact H|exact I]).
  destruct d as [|n [|m d]]; [exact (G [])| |exact (G (n :: m :: d))]. destruct (n <? 1); [exact I|]. eapply safe_bind; [apply fnext_dims_safe|].
  intros [d g] Hg. cbn. eapply frest_trans; eassumption.
Qed.
Lemma sread_dims_safe s sc : safe (fun x => rest_of (snd (fst x)) s) (read_dims_s s sc).
Proof.
  unfold read_dims_s. eapply safe_bind; [apply skip_safe|]. intros s1 H1. destruct (span _ s1) as [l r] eqn:E.
  eapply safe_bind; [apply buf_store_safe|]. intros l' ->. eapply safe_bind; [apply scan_ints_safe|]. intros d _. cbn.
  eapply rest_trans; [|exact H1]. apply span_rest in E. subst s1. apply rest_app.
Qed.
Lemma snext_dims_safe s sc : safe (fun x => rest_of (snd (fst x)) s) (next_dims_s s sc).
Proof. unfold next_dims_s. eapply safe_bind; [apply sread_dims_safe|]. intros [[d f'] sc'] H. destruct (Nat.eqb _ _); [exact H|exact I]. Qed.
Lemma sfirst_dims_safe s sc : safe (fun x => rest_of (snd (fst x)) s) (first_dims_s s sc).
Proof.
  unfold first_dims_s. eapply safe_bind; [apply sread_dims_safe|]. intros [[d s'] sc'] H. cbn [fst snd] in H.
  assert (G : forall d : list Z, safe (fun x => rest_of (snd (fst x)) s) (if Nat.eqb (List.length d) 6 then Ok (1, d, s', sc') else Err))
    by (intros e; destruct (Nat.eqb _ _); [exact H|exact I]).
  destruct d as [|n [|m d]]; [exact (G [])| |exact (G (n :: m :: d))]. destruct (n <? 1); [exact I|]. eapply safe_bind; [apply snext_dims_safe|].
  intros [[d g] sc2] Hg. cbn. eapply rest_trans; eassumption.
Qed.
Lemma fparts_safe p type : supported cfg p -> forall k d f sc,
  safe (fun x => frest (snd x) f /\ fst x <> [] /\ Forall (fun r => part_read p r /\ rtype r = type) (fst x)) (read_parts_f p type k d f sc).
Proof.
  intros Hp. induction k as [|k IH]; intros d f sc; cbn [read_parts_f].
  - pose proof (frow_part p type d f sc Hp) as H. destruct (new_part p type d) as [r| | |]; try exact H. cbn [bind] in *.
    eapply safe_bind; [exact H|]. intros [[r' g] sc'] (H1 & H2). cbn [fst snd] in *. cbn. auto 6 using List.Forall_cons, List.Forall_nil.
    split; [exact H1|]. split; [discriminate|]. now constructor.
  - pose proof (frow_part p type d f sc Hp) as H. destruct (new_part p type d) as [r| | |]; try exact H. cbn [bind] in *.
    eapply safe_bind; [exact H|]. intros [[r' g] sc'] (H1 & H2). cbn [fst snd] in *.
    eapply safe_bind; [apply fnext_dims_safe|]. intros [d' g'] Hg. cbn [snd] in Hg. eapply safe_bind; [apply IH|].
    intros [u g2] (G1 & G2 & G3). cbn [fst snd] in *. cbn. split; [|split; [discriminate|now constructor]].
    eapply frest_trans; [exact G1|]. eapply frest_trans; eassumption.
Qed.
Lemma sparts_safe p : supported cfg p -> forall k d s sc,
  safe (fun x => rest_of (snd x) s /\ fst x <> [] /\ Forall (fun r => part_read p r /\ rtype r = UNDEFINED) (fst x)) (read_parts_s p k d s sc).
Proof.
  intros Hp. induction k as [|k IH]; intros d s sc; cbn [read_parts_s].
  - pose proof (srow_part p UNDEFINED d s sc Hp) as H. destruct (new_part p UNDEFINED d) as [r| | |]; try exact H. cbn [bind] in *.
    eapply safe_bind; [exact H|]. intros [[r' g] sc'] (H1 & H2). cbn [fst snd] in *. cbn.
    split; [exact H1|]. split; [discriminate|]. now constructor.
  - pose proof (srow_part p UNDEFINED d s sc Hp) as H. destruct (new_part p UNDEFINED d) as [r| | |]; try exact H. cbn [bind] in *.
    eapply safe_bind; [exact H|]. intros [[r' g] sc'] (H1 & H2). cbn [fst snd] in *.
    eapply safe_bind; [apply snext_dims_safe|]. intros [[d' g'] sc2] Hg. cbn [fst snd] in Hg. eapply safe_bind; [apply IH|].
    intros [u g2] (G1 & G2 & G3). cbn [fst snd] in *. cbn. split; [|split; [discriminate|now constructor]].
    eapply rest_trans; [exact G1|]. eapply rest_trans; eassumption.
Qed.
Lemma pread_safe f p : supported cfg p ->
  safe (fun x => frest (snd x) f /\ union_read cfg p (fst x) /\ exists t, Forall (fun r => rtype r = t) (fst x)) (osl_relation_pread f p).
Proof.
  intros Hp. unfold osl_relation_pread. eapply safe_bind; [apply fread_type_safe|]. intros [t f1] [Ht H1]. cbn [fst snd] in *.
  eapply safe_bind; [apply ffirst_dims_safe|]. intros [[n d] f2] H2. cbn [snd] in H2.
  eapply safe_mono; [apply fparts_safe; exact Hp|]. intros [u f3] (G1 & G2 & G3). cbn [fst snd] in *.
  split; [eapply frest_trans; [exact G1|]; eapply frest_trans; eassumption|]. split.
  - split; [exact G2|]. revert G3. apply Forall_impl. intros r [[W E] T]. subst t. auto.
  - exists t. revert G3. apply Forall_impl. now intros r [_ T].
Qed.
Lemma psread_polylib_safe s p : supported cfg p ->
  safe (fun x => rest_of (snd x) s /\ fst x <> [] /\ Forall (fun r => part_read p r /\ rtype r = UNDEFINED) (fst x)) (osl_relation_psread_polylib s p).
Proof.
  intros Hp. unfold osl_relation_psread_polylib. eapply safe_bind; [apply sfirst_dims_safe|]. intros [[[n d] s1] sc] H1. cbn [fst snd] in H1.
  eapply safe_mono; [apply sparts_safe; exact Hp|]. intros [u g] (G1 & G2). split; [eapply rest_trans; eassumption|exact G2].
Qed.
Lemma psread_safe s p : supported cfg p ->
  safe (fun x => rest_of (snd x) s /\ union_read cfg p (fst x)) (osl_relation_psread s p).
Proof.
  intros Hp. unfold osl_relation_psread. eapply safe_bind; [apply read_type_safe|]. intros [t [s1|]] [Ht H1]; [|exact I]. cbn [fst snd] in *.
  eapply safe_bind; [apply psread_polylib_safe; exact Hp|]. intros [u s2] (G1 & G2 & G3). cbn [fst snd] in *.
  destruct u as [|r u]; [exact I|]. apply safe_ok. cbn [fst snd]. split; [eapply rest_trans; eassumption|]. split; [discriminate|].
  inversion G3 as [|? ? [[W E] T] G4]; subst. constructor; [split; [exact W|]; split; [reflexivity|exact Ht]|].
  revert G4. apply Forall_impl. intros x [[W' E'] T']. split; [exact W'|]. split; [exact E'|]. rewrite T'. cbn. tauto.
Qed.
End REL.
