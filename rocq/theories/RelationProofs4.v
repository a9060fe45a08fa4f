(** * Array identifiers, integrity check, attributes *)
From Coq Require Import ZifyBool ZifyNat.
From Verif Require Import Base IntModel VectorModel RelationModel Spec RelSpec LoopLemmas IntProofs VectorProofs
  RelationProofs RelationProofs2 RelationProofs3.

Section REL4.
Context {cfg : config}.
Hypothesis Hcfg : config_ok cfg.

Definition c1z (r : relation) (i : Z) : Prop := cell (rows r) i 1 = 0.

Lemma array_id_rows_ok r : wf_rel cfg r -> 2 <= ncols r ->
  exists k row, array_id_rows r 0 = Ok (k, row) /\
    ((k = 0 /\ forall i, 0 <= i < nrows r -> c1z r i) \/
     (k = 1 /\ 0 <= row < nrows r /\ ~ c1z r row /\ forall i, 0 <= i < nrows r -> i <> row -> c1z r i) \/
     (2 <= k /\ exists i j, 0 <= i < j /\ j < nrows r /\ ~ c1z r i /\ ~ c1z r j)).
Proof.
  intros W Hc. unfold array_id_rows.
  pose proof (wf_mat r W) as M1. pose proof (wf_nn r W). pose proof (wf_supp r W) as Hp.
  match goal with |- context[cfor 0 (nrows r) ?body (0, 0)] =>
  destruct (cfor_inv (fun n s => 
     ((fst s = 0 /\ forall i, 0 <= i < n -> c1z r i) \/
     (fst s = 1 /\ 0 <= snd s < n /\ ~ c1z r (snd s) /\ forall i, 0 <= i < n -> i <> snd s -> c1z r i) \/
     (2 <= fst s /\ exists i j, 0 <= i < j /\ j < n /\ ~ c1z r i /\ ~ c1z r j))) 0 (nrows r) body (0, 0))
     as ((k, row) & E & H') end.
  - lia.
  - left. cbn. split; [reflexivity|]. lia.
  - intros i (k, row) Hi Hinv. cbn [fst snd] in *.
    rewrite (mget_ok (nrows r) (ncols r)) by (assumption || lia). cbn [bind].
    rewrite zero_ok by assumption. cbn [bind]. rewrite cell_rows by (assumption || lia).
    destruct (Z.eqb_spec (cell (rows r) i 1) 0) as [E|E]; cbn [negb].
    + eexists. split; [reflexivity|]. cbn [fst snd].
      assert (Hz : forall P : Z -> Prop, (forall j, 0 <= j < i -> P j -> c1z r j) -> 
                forall j, 0 <= j < i + 1 -> P j -> c1z r j).
      { intros P HP j Hj Pj. destruct (Z.eq_dec j i); [subst; exact E|]. apply HP; [lia|assumption]. }
      destruct Hinv as [[Hk Hall]|[(Hk & Hr & Hn & Hall)|(Hk & a & b & Hab & Hb & Na & Nb)]].
      * left. split; [assumption|]. intros j Hj. apply (Hz (fun _ => True)); auto.
      * right; left. split; [assumption|]. split; [lia|]. split; [assumption|]. apply Hz. assumption.
      * right; right. split; [assumption|]. exists a, b. repeat split; try assumption; lia.
    + eexists. split; [reflexivity|]. cbn [fst snd].
      destruct Hinv as [[Hk Hall]|[(Hk & Hr & Hn & Hall)|(Hk & a & b & Hab & Hb & Na & Nb)]].
      * right; left. split; [lia|]. split; [lia|]. split; [exact E|]. intros j Hj Hne. apply Hall. lia.
      * right; right. split; [lia|]. exists row, i. repeat split; try assumption; try lia.
      * right; right. split; [lia|]. exists a, b. repeat split; try assumption; lia.
  - exists k, row. split; [exact E|]. exact H'.
Qed.

(* shape of the identifier row *)
Lemma id_row_shape r i : wf_rel cfg r -> 3 <= ncols r -> 0 <= i < nrows r ->
  (forall j, 0 <= j < ncols r - 1 -> j <> 1 -> cell (rows r) i j = 0) ->
  znth [] (rows r) i = 0 :: cell (rows r) i 1 :: repeat 0 (Z.to_nat (ncols r - 3)) ++ [cell (rows r) i (ncols r - 1)].
Proof.
  intros W Hc Hi Hz. pose proof (row_len r i W Hi) as Hl.
  apply (list_ext 0).
  - rewrite !zlength_cons, zlength_app, zlength_repeat, zlength_one. lia.
  - rewrite Hl. intros j Hj. rewrite !znth_cons by lia.
    destruct (Z.eqb_spec j 0); [subst; apply (Hz 0); lia|].
    rewrite znth_cons by lia. destruct (Z.eqb_spec (j - 1) 0); [replace j with 1 by lia; reflexivity|].
    rewrite znth_app, zlength_repeat by lia. rewrite znth_repeat0.
    destruct (Z.ltb_spec (j - 1 - 1) (Z.of_nat (Z.to_nat (ncols r - 3)))).
    + apply (Hz j); lia.
    + replace j with (ncols r - 1) by lia. replace (_ - _ - _ - _) with 0 by lia. reflexivity.
Qed.

Lemma split_at {A} (d : A) l i : 0 <= i < zlength l ->
  l = firstn (Z.to_nat i) l ++ znth d l i :: skipn (Z.to_nat (i + 1)) l.
Proof.
  intros Hi. unfold znth. rewrite <- (firstn_skipn (Z.to_nat i) l) at 1. f_equal.
  replace (Z.to_nat (i + 1)) with (S (Z.to_nat i)) by lia. unfold zlength in Hi.
  assert (Hn : (Z.to_nat i < length l)%nat) by lia. clear Hi. revert Hn. generalize (Z.to_nat i) as n.
  revert l. induction l as [|x l IH]; intros [|n] Hn; cbn in *; try lia; [reflexivity|]. apply IH. lia.
Qed.

Lemma quot_id c a : a <> 0 -> Z.rem c a = 0 -> a * Z.quot (- c) a + c = 0.
Proof.
  intros Ha Hr. rewrite Z.quot_opp_l by assumption. pose proof (Z.quot_rem' c a). lia.
Qed.

Lemma part_id_sound r n : wf_rel cfg r -> ndebug cfg = false ->
  part_array_id r = Ok (Some n) -> fixes_array r n.
Proof.
  intros W Nd. unfold part_array_id.
  destruct (Z.ltb_spec (nrows r) 1); [discriminate|]. destruct (Z.ltb_spec (ncols r) 3); [discriminate|]. cbn [orb].
  pose proof (wf_mat r W) as M1. pose proof (wf_supp r W) as Hp.
  destruct (array_id_rows_ok r W) as (k & row & E & Hcase); [lia|]. rewrite E. cbn [bind].
  destruct (Z.eqb_spec k 0); [discriminate|]. destruct (Z.ltb_spec 1 k); [discriminate|].
  destruct Hcase as [[? _]|[(_ & Hrow & Hnz & Hoth)|[? _]]]; try lia.
  match goal with |- context[cforall 0 (ncols r - 1) ?c] =>
    destruct (cforall_dec 0 (ncols r - 1) c (fun j => (j =? 1) || (cell (rows r) row j =? 0))) as (b & Eb & Hb) end.
  { intros j Hj. destruct (Z.eqb_spec j 1); cbn [negb orb]; [reflexivity|].
    rewrite (mget_ok (nrows r) (ncols r)) by (assumption || lia). cbn [bind]. rewrite zero_ok by assumption.
    rewrite cell_rows by (assumption || lia). reflexivity. }
  rewrite Eb. cbn [bind]. destruct b; cbn [negb]; [|discriminate].
  assert (Hz : forall j, 0 <= j < ncols r - 1 -> j <> 1 -> cell (rows r) row j = 0).
  { intros j Hj Hne. pose proof (proj1 Hb eq_refl j Hj). lia. }
  rewrite !(mget_ok (nrows r) (ncols r)) by (assumption || lia). cbn [bind].
  rewrite !cell_rows by (assumption || lia).
  set (c := cell (rows r) row (ncols r - 1)). set (a := cell (rows r) row 1).
  assert (Ha : a <> 0) by exact Hnz.
  destruct (osl_int_divisible (rprec r) c a) as [d| | |] eqn:Ed; try discriminate. cbn [bind].
  assert (Hrem : d = true -> Z.rem c a = 0).
  { intros ->. unfold osl_int_divisible, pswitch, c_rem in Ed. destruct (Z.eqb_spec a 0); [contradiction|].
    destruct (is_fixed (rprec r)); [|destruct (is_mp (rprec r))]; try discriminate.
    - destruct (negb _); [discriminate|]. cbn [bind] in Ed. injection Ed. lia.
    - injection Ed. lia. }
  destruct d; cbn [negb]; [|discriminate].
  unfold osl_int_get_si. rewrite !pswitch_supported by auto. rewrite Nd.
  destruct (Z.ltb_spec INT_MAX c); [discriminate|]. destruct (Z.ltb_spec c INT_MIN); [discriminate|].
  cbn [bind]. unfold c_neg, csigned at 1. destruct (fits 32 (- c)) eqn:Ef; [|discriminate]. cbn [bind].
  destruct (Z.ltb_spec INT_MAX a); [discriminate|]. destruct (Z.ltb_spec a INT_MIN); [discriminate|].
  cbn [bind]. unfold c_div, csigned. destruct (Z.eqb_spec a 0); [contradiction|].
  destruct (fits 32 (Z.quot (- c) a)); [|discriminate]. cbn [bind].
  destruct (Z.leb_spec (Z.quot (- c) a) 0); [discriminate|]. intros Hok. injection Hok as <-.
  split; [lia|]. exists (firstn (Z.to_nat row) (rows r)), (skipn (Z.to_nat (row + 1)) (rows r)), a, c.
  split; [assumption|]. split; [apply quot_id; auto|]. split.
  - rewrite (split_at [] (rows r) row) at 1 by (rewrite rows_length; auto). f_equal. f_equal.
    apply id_row_shape; auto.
  - assert (Hnth : forall l : list Z, nth 1 l 0 = znth 0 l 1) by reflexivity.
    pose proof (rows_length r W) as Hl. apply Forall_app. split; apply (Forall_znth _ []).
    + rewrite zlength_firstn by lia. intros i Hi. rewrite znth_firstn by lia. rewrite Hnth.
      apply Hoth; lia.
    + rewrite zlength_skipn by lia. intros i Hi. rewrite znth_skipn by lia. rewrite Hnth.
      apply Hoth; lia.
Qed.

Lemma part_id_complete r n pre post a c : wf_rel cfg r -> 0 < n ->
  a <> 0 -> a * n + c = 0 ->
  rows r = pre ++ (0 :: a :: repeat 0 (Z.to_nat (ncols r - 3)) ++ [c]) :: post ->
  Forall (fun row => nth 1 row 0 = 0) (pre ++ post) ->
  c_int a -> c_int c -> c <> - 2 ^ 31 ->
  part_array_id r = Ok (Some n).
Proof.
  intros W Hn Ha Hac Hrows Hoth Ia Ic Hcm. unfold part_array_id.
  pose proof (wf_mat r W) as M1. pose proof (wf_supp r W) as Hp. pose proof (wf_nn r W) as Hnn.
  pose proof (rows_length r W) as Hl. pose proof (rows_width r W) as Hw.
  set (idrow := 0 :: a :: repeat 0 (Z.to_nat (ncols r - 3)) ++ [c]) in *.
  set (row := zlength pre).
  assert (Hrow : 0 <= row < nrows r).
  { rewrite <- Hl, Hrows, zlength_app, zlength_cons. pose proof (zlength_nonneg pre). pose proof (zlength_nonneg post).
    unfold row. lia. }
  assert (Hc3 : 3 <= ncols r).
  { rewrite Hrows in Hw. apply Forall_app in Hw as [_ Hw]. apply Forall_inv in Hw. unfold idrow in Hw.
    rewrite !zlength_cons, zlength_app, zlength_repeat, zlength_one in Hw. lia. }
  assert (Hid : znth [] (rows r) row = idrow).
  { rewrite Hrows, znth_app by lia. destruct (Z.ltb_spec row (zlength pre)); [unfold row in *; lia|].
    replace (row - zlength pre) with 0 by (unfold row; lia). reflexivity. }
  assert (Hothers : forall i, 0 <= i < nrows r -> i <> row -> c1z r i).
  { intros i Hi Hne. unfold c1z, cell. change (znth 0 (znth [] (rows r) i) 1) with (nth 1 (znth [] (rows r) i) 0).
    apply Forall_app in Hoth as [Hp1 Hp2].
    rewrite Hrows, znth_app by lia. destruct (Z.ltb_spec i (zlength pre)).
    - apply (Forall_at (fun row => nth 1 row 0 = 0)); [assumption|lia].
    - rewrite znth_cons by lia. unfold row in Hne. destruct (Z.eqb_spec (i - zlength pre) 0); [lia|].
      apply (Forall_at (fun row => nth 1 row 0 = 0)); [assumption|].
      rewrite <- Hl, Hrows, zlength_app, zlength_cons in Hi. lia. }
  assert (Hca : cell (rows r) row 1 = a) by (unfold cell; rewrite Hid; reflexivity).
  assert (Hcell : forall j, 0 <= j -> cell (rows r) row j =
     if j =? 0 then 0 else if j =? 1 then a else if j <? ncols r - 1 then 0 else if j =? ncols r - 1 then c else 0).
  { intros j Hj. unfold cell. rewrite Hid. unfold idrow. rewrite !znth_cons by lia.
    destruct (Z.eqb_spec j 0); [reflexivity|]. rewrite znth_cons by lia.
    destruct (Z.eqb_spec (j - 1) 0), (Z.eqb_spec j 1); try lia; try reflexivity.
    rewrite znth_app, zlength_repeat, znth_repeat0 by lia.
    destruct (Z.ltb_spec (j - 1 - 1) (Z.of_nat (Z.to_nat (ncols r - 3)))), (Z.ltb_spec j (ncols r - 1)); try lia; try reflexivity.
    rewrite znth_cons by lia. destruct (Z.eqb_spec (j - 1 - 1 - Z.of_nat (Z.to_nat (ncols r - 3))) 0),
      (Z.eqb_spec j (ncols r - 1)); try lia; try reflexivity. apply znth_out. rewrite zlength_nil. lia. }
  destruct (Z.ltb_spec (nrows r) 1); [lia|]. destruct (Z.ltb_spec (ncols r) 3); [lia|]. cbn [orb].
  destruct (array_id_rows_ok r W) as (k & row' & E & Hcase); [lia|]. rewrite E. cbn [bind].
  assert (Hk : k = 1 /\ row' = row).
  { destruct Hcase as [[_ Hall]|[(Hk & Hr' & Hnz & _)|(_ & i & j & Hij & Hj & Ni & Nj)]].
    - exfalso. specialize (Hall row Hrow). unfold c1z in Hall. congruence.
    - split; [assumption|]. destruct (Z.eq_dec row' row); [assumption|]. exfalso. apply Hnz, Hothers; lia.
    - exfalso. destruct (Z.eq_dec i row).
      + apply Nj, Hothers; lia.
      + apply Ni, Hothers; lia. }
  destruct Hk as [-> ->]. change (1 =? 0) with false. change (1 <? 1) with false. cbn iota.
  rewrite cforall_true.
  2:{ intros j Hj. destruct (Z.eqb_spec j 1); cbn [negb]; [reflexivity|].
      rewrite (mget_ok (nrows r) (ncols r)) by (assumption || lia). cbn [bind]. rewrite zero_ok by assumption.
      rewrite cell_rows by (assumption || lia). rewrite Hcell by lia.
      replace (j =? 1) with false by lia. replace (j <? ncols r - 1) with true by lia.
      destruct (j =? 0); reflexivity. }
  cbn [bind negb]. rewrite !(mget_ok (nrows r) (ncols r)) by (assumption || lia). cbn [bind].
  rewrite !cell_rows by (assumption || lia). rewrite Hca, Hcell by lia.
  replace (ncols r - 1 =? 0) with false by lia. replace (ncols r - 1 =? 1) with false by lia.
  rewrite Z.ltb_irrefl, Z.eqb_refl.
  destruct (divisible_exact Hcfg (rprec r) c a) as (d & Ed & Hd); try (apply representable_int; assumption); try assumption.
  { unfold is_min, c_int in *. destruct Hcfg as [E'|E']; rewrite E'; lia. }
  rewrite Ed. cbn [bind].
  assert (Ec : c = a * - n) by lia.
  replace d with true by (symmetry; apply Hd; exists (- n); lia). cbn [bind negb].
  rewrite !get_si_ok by assumption. cbn [bind]. unfold c_neg, csigned, c_div.
  unfold c_int in Ia, Ic. replace (fits 32 (- c)) with true.
  2:{ unfold fits. change (smin 32) with (-2147483648). change (smax 32) with 2147483647. lia. }
  cbn [bind]. destruct (Z.eqb_spec a 0); [contradiction|].
  assert (Hq : Z.quot (- c) a = n) by (rewrite Ec; replace (- (a * - n)) with (n * a) by lia; apply Z.quot_mul; assumption).
  rewrite Hq. unfold csigned. replace (fits 32 n) with true.
  2:{ unfold fits. change (smin 32) with (-2147483648). change (smax 32) with 2147483647. nia. }
  cbn [bind]. destruct (Z.leb_spec n 0); [lia|]. reflexivity.
Qed.

Lemma id_loop_sound u ref last n : wf_union cfg u -> ndebug cfg = false ->
  array_id_loop u ref last = Ok n -> n <> -1 ->
  (u <> [] \/ last = n -> True) /\
  Forall (fun r => fixes_array r n) u /\
  (match ref with Some id => u <> [] -> id = n | None => True end) /\ (u = [] -> last = n).
Proof.
  intros W Nd. revert ref last. induction W as [|r u Hr W IH]; intros ref last H Hn.
  - cbn in H. injection H as ->. repeat split; auto. destruct ref; auto. intros C; contradiction.
  - cbn [array_id_loop] in H. destruct (part_array_id r) as [o| | |] eqn:Eo; try discriminate. cbn [bind] in H.
    destruct o as [id|]; [|injection H as <-; contradiction].
    pose proof (part_id_sound r id Hr Nd Eo) as Hf.
    assert (Hid : id = n /\ Forall (fun r => fixes_array r n) u /\
      match ref with Some id' => id' = id | None => True end).
    { destruct ref as [rid|].
      - destruct (Z.eqb_spec rid id); cbn [negb] in H; [|injection H as <-; contradiction].
        destruct (IH _ _ H Hn) as (_ & HF & Hr1 & Hr2). split; [|auto]. subst rid.
        destruct u; [apply Hr2; reflexivity|apply Hr1; discriminate].
      - destruct (IH _ _ H Hn) as (_ & HF & Hr1 & Hr2). split; [|auto].
        destruct u; [apply Hr2; reflexivity|apply Hr1; discriminate]. }
    destruct Hid as (-> & HF & Href). split; [auto|]. split; [constructor; assumption|]. split.
    + destruct ref; auto.
    + intros C; discriminate.
Qed.

Lemma is_access_spec r : osl_relation_is_access r = true <-> access_type (rtype r).
Proof. unfold osl_relation_is_access, access_type. lia. Qed.

Lemma get_array_id_sound u n : wf_union cfg u -> ndebug cfg = false ->
  osl_relation_get_array_id u = Ok n -> n <> -1 ->
  Forall (fun r => fixes_array r n) u /\ exists r u', u = r :: u' /\ access_type (rtype r).
Proof.
  intros W Nd H Hn. unfold osl_relation_get_array_id in H. destruct u as [|r u]; [injection H as <-; contradiction|].
  destruct (osl_relation_is_access r) eqn:Ea; cbn [negb] in H; [|injection H as <-; contradiction].
  destruct (id_loop_sound _ _ _ _ W Nd H Hn) as (_ & HF & _). split; [assumption|].
  exists r, u. split; [reflexivity|]. apply is_access_spec. assumption.
Qed.

(* what the int conversions need *)
Definition small_id (r : relation) : Prop :=
  Forall (Forall (fun v => - 2 ^ 31 < v <= 2 ^ 31 - 1)) (rows r).

Lemma fixes_small r n : wf_rel cfg r -> small_id r -> fixes_array r n -> part_array_id r = Ok (Some n).
Proof.
  intros W Hs (Hn & pre & post & a & c & Ha & Hac & Hrows & Hoth).
  assert (Hb : (- 2 ^ 31 < a <= 2 ^ 31 - 1) /\ (- 2 ^ 31 < c <= 2 ^ 31 - 1)).
  { unfold small_id in Hs. rewrite Hrows in Hs. apply Forall_app in Hs as [_ Hs]. apply Forall_inv in Hs.
    pose proof (Forall_inv (Forall_inv_tail Hs)) as H1. apply Forall_inv_tail, Forall_inv_tail, Forall_app in Hs as [_ Hs].
    apply Forall_inv in Hs. auto. }
  apply (part_id_complete r n pre post a c); auto; unfold c_int; lia.
Qed.

Lemma id_loop_complete u ref n last : wf_union cfg u -> Forall small_id u ->
  Forall (fun r => fixes_array r n) u -> match ref with Some id => id = n | None => True end ->
  u <> [] -> array_id_loop u ref last = Ok n.
Proof.
  intros W. revert ref last. induction W as [|r u Hr W IH]; intros ref last Hs HF Href Hne; [contradiction|].
  cbn [array_id_loop]. rewrite (fixes_small r n Hr (Forall_inv Hs) (Forall_inv HF)). cbn [bind].
  assert (Hrest : forall ref' , match ref' with Some id => id = n | None => True end -> array_id_loop u ref' n = Ok n).
  { intros ref' H'. destruct u as [|r2 u]; [reflexivity|].
    apply IH; auto; try (eapply Forall_inv_tail; eassumption). discriminate. }
  destruct ref as [id|].
  - subst. rewrite Z.eqb_refl. cbn [negb]. apply Hrest. reflexivity.
  - apply Hrest. reflexivity.
Qed.

Lemma get_array_id_complete r u n : wf_union cfg (r :: u) -> Forall small_id (r :: u) ->
  access_type (rtype r) -> Forall (fun r => fixes_array r n) (r :: u) ->
  osl_relation_get_array_id (r :: u) = Ok n.
Proof.
  intros W Hs Ha HF. unfold osl_relation_get_array_id. apply is_access_spec in Ha. rewrite Ha. cbn [negb].
  apply id_loop_complete; auto. discriminate.
Qed.

(* every point of a part that fixes [n] has [n] as first coordinate *)
Lemma fixes_array_points r n x : wf_rel cfg r -> fixes_array r n -> in_part r x -> nth 0 x 0 = n.
Proof.
  intros W (Hn & pre & post & a & c & Ha & Hac & Hrows & _) [Hl Hs].
  pose proof (rows_width r W) as Hw. rewrite Hrows in Hs, Hw. apply Forall_app in Hs as [_ Hs]. apply Forall_inv in Hs.
  apply Forall_app in Hw as [_ Hw]. apply Forall_inv in Hw.
  rewrite !zlength_cons, zlength_app, zlength_repeat, zlength_one in Hw.
  cbn [satisfies] in Hs. change (0 =? 0) with true in Hs. cbn iota in Hs.
  destruct x as [|x0 x]; [rewrite zlength_nil in Hl; lia|].
  rewrite zlength_cons in Hl. cbn [nth].
  change (a :: repeat 0 (Z.to_nat (ncols r - 3)) ++ [c]) with ((a :: repeat 0 (Z.to_nat (ncols r - 3))) ++ [c]) in Hs.
  rewrite affine_last in Hs by (cbn [length]; rewrite repeat_length; unfold zlength in Hl; lia).
  cbn [dotp] in Hs. rewrite dotp_zeros in Hs. nia.
Qed.

(** ** Integrity check *)
Lemma tags_check r : wf_rel cfg r ->
  exists b, (if (0 <? nrows r) && (0 <? ncols r) then
               cforall 0 (nrows r) (fun i =>
                 x <- mget (rm r) i 0 ;;
                 z <- osl_int_zero (rprec r) x ;;
                 if z then Ok true else osl_int_one (rprec r) x)
             else Ok true) = Ok b /\ (b = true <-> tags_ok r).
Proof.
  intros W. pose proof (wf_mat r W) as M1. pose proof (wf_supp r W) as Hp. pose proof (wf_nn r W) as Hnn.
  pose proof (rows_length r W) as Hl.
  destruct (Z.ltb_spec 0 (nrows r)); [destruct (Z.ltb_spec 0 (ncols r))|]; cbn [andb].
  - match goal with |- context[cforall 0 (nrows r) ?c] =>
      destruct (cforall_dec 0 (nrows r) c (fun i => (cell (rows r) i 0 =? 0) || (cell (rows r) i 0 =? 1))) as (b & E & Hb) end.
    + intros i Hi. rewrite (mget_ok (nrows r) (ncols r)) by (assumption || lia). cbn [bind].
      rewrite zero_ok by assumption. cbn [bind]. rewrite cell_rows by (assumption || lia).
      destruct (cell (rows r) i 0 =? 0); [reflexivity|]. cbn [orb].
      unfold osl_int_one. rewrite pswitch_supported by auto. reflexivity.
    + exists b. split; [exact E|]. rewrite Hb. unfold tags_ok. rewrite (Forall_znth _ [] (rows r)), Hl.
      split; intros H1 i Hi; specialize (H1 i Hi).
      * right. change (nth 0 (znth [] (rows r) i) 0) with (cell (rows r) i 0). lia.
      * destruct H1 as [H1|H1].
        -- pose proof (row_len r i W Hi) as Hrl. rewrite H1, zlength_nil in Hrl. lia.
        -- change (nth 0 (znth [] (rows r) i) 0) with (cell (rows r) i 0) in H1. lia.
  - exists true. split; [reflexivity|]. split; [intros _|reflexivity]. unfold tags_ok.
    apply (Forall_znth _ []). rewrite Hl. intros i Hi. left. apply zlength_0. rewrite row_len; auto; lia.
  - exists true. split; [reflexivity|]. split; [intros _|reflexivity]. unfold tags_ok.
    apply (Forall_znth _ []). rewrite Hl. intros i Hi. lia.
Qed.

Lemma integrity_part_ok u r eo ei ep : wf_rel cfg r -> wf_union cfg u -> ndebug cfg = false ->
  eo <> -1 -> ei <> -1 -> ep <> -1 ->
  integrity_part u r eo ei ep = Ok true ->
  nout r = eo /\ nin r = ei /\ npar r = ep /\ ncols r = eo + ei + locals r + ep + 2 /\ tags_ok r /\
  (access_type (rtype r) -> exists n, osl_relation_get_array_id u = Ok n /\ n <> -1).
Proof.
  intros W Wu Nd Ho Hi Hp. unfold integrity_part, osl_relation_check_nb_columns, locals.
  destruct (tags_check r W) as (b & E & Hb). rewrite E. cbn [bind].
  destruct (Z.eqb_spec eo (nout r)); cbn [negb orb]; [|discriminate].
  destruct (Z.eqb_spec ei (nin r)); cbn [negb orb]; [|discriminate].
  destruct (Z.eqb_spec ep (npar r)); cbn [negb orb]; [|discriminate].
  unfold UNDEFINED in *. destruct (Z.eqb_spec eo (-1)); [contradiction|]. destruct (Z.eqb_spec ei (-1)); [contradiction|].
  destruct (Z.eqb_spec ep (-1)); [contradiction|]. cbn [negb andb].
  set (l := if nloc r =? -1 then 0 else nloc r).
  destruct (Z.eqb_spec (eo + ei + l + ep + 2) (ncols r)); cbn [negb]; [|discriminate].
  destruct b; cbn [negb]; [|discriminate]. intros H.
  repeat (split; [auto; lia|]). split; [apply Hb; reflexivity|].
  intros Ha. apply is_access_spec in Ha. rewrite Ha in H.
  destruct (osl_relation_get_array_id u) as [id| | |]; try discriminate. cbn [bind] in H. exists id.
  split; [reflexivity|]. injection H as H. lia.
Qed.

Lemma integrity_part_complete u r eo ei ep : wf_rel cfg r ->
  eo <> -1 -> ei <> -1 -> ep <> -1 ->
  nout r = eo -> nin r = ei -> npar r = ep -> ncols r = eo + ei + locals r + ep + 2 -> tags_ok r ->
  (access_type (rtype r) -> exists n, osl_relation_get_array_id u = Ok n /\ n <> -1) ->
  integrity_part u r eo ei ep = Ok true.
Proof.
  intros W Ho Hi Hp E1 E2 E3 E4 Ht Hid. unfold integrity_part, osl_relation_check_nb_columns.
  destruct (tags_check r W) as (b & E & Hb). rewrite E. cbn [bind].
  rewrite E1, E2, E3, !Z.eqb_refl. cbn [negb orb]. unfold UNDEFINED in *.
  destruct (Z.eqb_spec eo (-1)); [contradiction|]. destruct (Z.eqb_spec ei (-1)); [contradiction|].
  destruct (Z.eqb_spec ep (-1)); [contradiction|]. cbn [negb andb].
  unfold locals, UNDEFINED in E4. rewrite <- E4, Z.eqb_refl. cbn [negb].
  replace b with true by (symmetry; apply Hb; assumption). cbn [negb].
  destruct (osl_relation_is_access r) eqn:Ea; [|reflexivity].
  apply is_access_spec in Ea. destruct (Hid Ea) as (idn & -> & Hidn). cbn [bind].
  destruct (Z.eqb_spec idn (-1)); [contradiction|]. reflexivity.
Qed.

Definition part_good (eo ei ep : Z) (r : relation) : Prop :=
  nout r = eo /\ nin r = ei /\ npar r = ep /\ ncols r = eo + ei + locals r + ep + 2 /\ tags_ok r.

Lemma integrity_loop_sound u eo ei ep : wf_union cfg u -> ndebug cfg = false ->
  eo <> -1 -> ei <> -1 -> ep <> -1 -> integrity_loop u eo ei ep = Ok true ->
  Forall (part_good eo ei ep) u /\
  (forall pre part post, u = pre ++ part :: post -> access_type (rtype part) ->
     exists n, osl_relation_get_array_id (part :: post) = Ok n /\ n <> -1).
Proof.
  intros W Nd Ho Hi Hp. induction W as [|r u Hr W IH]; intros H.
  - split; [constructor|]. intros [|? ?] ? ? C; discriminate.
  - cbn [integrity_loop] in H. destruct (integrity_part (r :: u) r eo ei ep) as [b| | |] eqn:Eb; try discriminate.
    cbn [bind] in H. destruct b; [|discriminate].
    destruct (integrity_part_ok (r :: u) r eo ei ep) as (H1 & H2 & H3 & H4 & H5 & H6); auto; [constructor; assumption|].
    destruct (IH H) as [HF Hs]. split; [constructor; [unfold part_good; auto|assumption]|].
    intros [|p pre] part post E Ha.
    + injection E as <- <-. auto.
    + injection E as _ E. eauto.
Qed.

Lemma integrity_loop_complete u eo ei ep : wf_union cfg u ->
  eo <> -1 -> ei <> -1 -> ep <> -1 -> Forall (part_good eo ei ep) u ->
  (forall pre part post, u = pre ++ part :: post -> access_type (rtype part) ->
     exists n, osl_relation_get_array_id (part :: post) = Ok n /\ n <> -1) ->
  integrity_loop u eo ei ep = Ok true.
Proof.
  intros W Ho Hi Hp. induction W as [|r u Hr W IH]; intros HF Hs; [reflexivity|].
  cbn [integrity_loop]. destruct (Forall_inv HF) as (H1 & H2 & H3 & H4 & H5).
  rewrite integrity_part_complete; auto.
  - cbn [bind]. apply IH; [eapply Forall_inv_tail; eassumption|].
    intros pre part post E. apply (Hs (r :: pre)). cbn. congruence.
  - intros Ha. apply (Hs [] r u); auto.
Qed.

Lemma check_attribute_spec e a : osl_relation_check_attribute e a =
  (if (e =? -1) || (a =? -1) || (a =? e) then true else false, if e =? -1 then a else e).
Proof. unfold osl_relation_check_attribute, UNDEFINED. bsplit; reflexivity. Qed.

Lemma integrity_sound u t eo ei ep : wf_union cfg u -> ndebug cfg = false ->
  osl_relation_integrity_check u t eo ei ep = Ok true -> coherent u t eo ei ep.
Proof.
  intros W Nd H first rest ->. unfold osl_relation_integrity_check in H.
  rewrite !check_attribute_spec in H. unfold UNDEFINED in *.
  match type of H with (if ?c then _ else _) = _ => destruct c eqn:C1; [discriminate|] end.
  match type of H with (if ?c then _ else _) = _ => destruct c eqn:C2; [discriminate|] end.
  match type of H with (if ?c then _ else _) = _ => destruct c eqn:C3; [discriminate|] end.
  match type of H with (if ?c then _ else _) = _ => destruct c eqn:C4; [discriminate|] end.
  destruct ((eo =? -1) || (nout first =? -1) || (nout first =? eo)) eqn:C5; cbn [negb] in H; [|discriminate].
  destruct ((ei =? -1) || (nin first =? -1) || (nin first =? ei)) eqn:C6; cbn [negb] in H; [|discriminate].
  destruct ((ep =? -1) || (npar first =? -1) || (npar first =? ep)) eqn:C7; cbn [negb] in H; [|discriminate].
  assert (Eo : (if eo =? -1 then nout first else eo) = nout first) by (destruct (Z.eqb_spec eo (-1)); lia).
  assert (Ei : (if ei =? -1 then nin first else ei) = nin first) by (destruct (Z.eqb_spec ei (-1)); lia).
  assert (Ep : (if ep =? -1 then npar first else ep) = npar first) by (destruct (Z.eqb_spec ep (-1)); lia).
  rewrite Eo, Ei, Ep in H.
  destruct (integrity_loop_sound (first :: rest) (nout first) (nin first) (npar first) W Nd) as [HF Hs]; auto; try lia.
  unfold meets, UNDEFINED.
  split.
  { pose proof (is_access_spec first). destruct (Z.eqb_spec t TYPE_ACCESS).
    - apply is_access_spec. destruct (osl_relation_is_access first); [reflexivity|]. lia.
    - lia. }
  repeat (split; [lia|]). split.
  { eapply Forall_impl; [|exact HF]. intros r (H1 & H2 & H3 & H4 & H5). rewrite H1, H2, H3. auto. }
  intros pre part post E Ha. destruct (Hs pre part post E Ha) as (n & En & Hn).
  exists n. apply (get_array_id_sound (part :: post) n); auto.
  unfold wf_union in *. rewrite E in W. apply Forall_app in W. tauto.
Qed.

Lemma integrity_complete u t eo ei ep : wf_union cfg u -> Forall small_id u ->
  coherent u t eo ei ep -> osl_relation_integrity_check u t eo ei ep = Ok true.
Proof.
  intros W Hsm H. destruct u as [|first rest]; [reflexivity|].
  destruct (H first rest eq_refl) as (Ht & U1 & U2 & U3 & U4 & K1 & K2 & M1 & M2 & M3 & HF & Hs).
  unfold osl_relation_integrity_check. rewrite !check_attribute_spec. unfold meets, UNDEFINED in *.
  pose proof (is_access_spec first) as Hacc.
  match goal with |- (if ?c then _ else _) = _ => replace c with false end.
  2:{ destruct (Z.eqb_spec t TYPE_ACCESS); destruct (osl_relation_is_access first); cbn [negb andb orb];
      destruct (Z.eqb_spec t (rtype first)); cbn [negb andb orb]; try reflexivity; try lia;
      exfalso; apply Hacc in Ht; discriminate. }
  match goal with |- (if ?c then _ else _) = _ => replace c with false by lia end.
  match goal with |- (if ?c then _ else _) = _ => replace c with false by lia end.
  match goal with |- (if ?c then _ else _) = _ => replace c with false by lia end.
  replace ((eo =? -1) || (nout first =? -1) || (nout first =? eo)) with true by lia.
  replace ((ei =? -1) || (nin first =? -1) || (nin first =? ei)) with true by lia.
  replace ((ep =? -1) || (npar first =? -1) || (npar first =? ep)) with true by lia. cbn [negb].
  replace (if eo =? -1 then nout first else eo) with (nout first) by (destruct (Z.eqb_spec eo (-1)); lia).
  replace (if ei =? -1 then nin first else ei) with (nin first) by (destruct (Z.eqb_spec ei (-1)); lia).
  replace (if ep =? -1 then npar first else ep) with (npar first) by (destruct (Z.eqb_spec ep (-1)); lia).
  apply integrity_loop_complete; auto.
  - eapply Forall_impl; [|exact HF]. intros r (H1 & H2 & H3 & H4 & H5). unfold part_good. repeat split; auto.
    rewrite <- H1, <- H2, <- H3. assumption.
  - intros pre part post E Ha. destruct (Hs pre part post E Ha) as (n & Hn). exists n. split.
    + unfold wf_union in W. rewrite E in W, Hsm. apply Forall_app in W, Hsm.
      apply get_array_id_complete; tauto.
    + apply Forall_inv in Hn. destruct Hn as [Hn _]. lia.
Qed.

(** ** Attributes *)
Lemma attrs_fold u a a' : osl_relation_get_attributes u a = Ok a' ->
  exists ls, Forall2 (fun suf l => exists r, hd_error suf = Some r /\ local_attrs suf r = Ok l)
               (map (fun n => skipn n u) (seq 0 (length u))) ls /\
    a' = fold_left attrs_max ls a.
Proof.
  revert a. induction u as [|r u IH]; intros a H.
  - cbn in H. injection H as <-. exists []. split; constructor.
  - cbn [osl_relation_get_attributes] in H. destruct (local_attrs (r :: u) r) as [l| | |] eqn:El; try discriminate.
    cbn [bind] in H. destruct (IH _ H) as (ls & HF & E). exists (l :: ls). split.
    + cbn [length seq map skipn]. constructor; [exists r; auto|]. rewrite <- seq_shift, map_map. exact HF.
    + exact E.
Qed.

End REL4.
