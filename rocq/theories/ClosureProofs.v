(** Proofs for C88: the interpolating polynomial is unique; surface of interpolated moments. *)
From Coq Require Import ZArith List Bool Reals Lra Lia.
From Verif Require Import Num Defs State Coag Nucl Growth Oxid Tar SootModel Momic Calls XR XRLemmas NumLaws SpecState SpecChem SpecCoag SpecValid SpecRates SpecGas SpecPah SpecPsd SpecSect SpecQmom SpecBinomial SpecLogn SpecMomic SpecClosure
  CoagProofs StateXR ValidProofs InterpProofs GasProofs RateProofs PsdProofs PahProofs PahMain MonoProofs MonoMain ChemAll SectProofs SectMain QmomRun QmomCases LognProofs LognMain LognFinal LognCases MomicProofs MomicMain MomicRun MomicFinal MomicCases.
Import ListNotations.
Local Open Scope R_scope.

(** ** polynomials *)
Fixpoint padd (c d : list R) : list R :=
  match c, d with [], _ => d | _, [] => c | a :: c', b :: d' => (a + b) :: padd c' d' end.
Definition pscale (k : R) (c : list R) : list R := map (Rmult k) c.
Lemma padd_val c : forall d x, poly (padd c d) x = poly c x + poly d x.
Proof. induction c as [|a c IH]; intros [|b d] x; cbn [padd poly]; try ring. rewrite IH. ring. Qed.
Lemma padd_len c : forall d n, (length c <= n)%nat -> (length d <= n)%nat -> (length (padd c d) <= n)%nat.
Proof. induction c as [|a c IH]; intros [|b d] n Hc Hd; cbn [padd length] in *; auto. destruct n as [|n]; [lia|]. apply le_n_S, IH; lia. Qed.
Lemma pscale_val k c x : poly (pscale k c) x = k * poly c x.
Proof. induction c as [|a c IH]; cbn [pscale map poly]; [ring|]. fold (pscale k c). rewrite IH. ring. Qed.
Lemma pscale_len k c : length (pscale k c) = length c. Proof. apply map_length. Qed.

Lemma gbin_poly k : exists c, (length c = S k)%nat /\ forall r, gbin r k = poly c r.
Proof.
  induction k as [|k (c & L & E)].
  - exists [1]. split; [reflexivity|]. intros. cbn [gbin poly]. ring.
  - exists (pscale (/ INR (S k)) (padd (0 :: c) (pscale (- INR k) c ++ [0]))). split.
    + rewrite pscale_len. assert (G : forall a b : list R, length a = length b -> length (padd a b) = length b).
      { induction a as [|u a IH]; intros [|v b] H; cbn in *; try lia. f_equal. apply IH. lia. }
      rewrite G; [rewrite app_length, pscale_len, L; cbn; lia|]. rewrite app_length, pscale_len. cbn [length]. lia.
    + intros r. cbn [gbin]. rewrite E, pscale_val, padd_val.
      assert (A : forall d, poly (d ++ [0]) r = poly d r). { induction d as [|u d IH]; cbn [app poly]; [ring|]. now rewrite IH. }
      rewrite A, pscale_val. cbn [poly]. unfold Rdiv. ring.
Qed.
Lemma interp_poly n f : exists c, (length c <= n)%nat /\ forall r, interpolate n f r = poly c r.
Proof.
  induction n as [|n (c & L & E)].
  - exists []. split; [cbn; lia|]. intros. reflexivity.
  - destruct (gbin_poly n) as (b & Lb & Eb). exists (padd c (pscale (fdiff n f 0) b)). split.
    + apply padd_len; [lia|]. rewrite pscale_len. lia.
    + intros r. unfold interpolate. rewrite Sum_S. fold (interpolate n f r). rewrite padd_val, pscale_val, <- E, <- Eb. ring.
Qed.
(** division by x - a *)
Lemma poly_div c a : exists q, length q = pred (length c) /\ forall x, poly c x = (x - a) * poly q x + poly c a.
Proof.
  induction c as [|u c (q & L & E)].
  - exists []. split; [reflexivity|]. intros. cbn [poly]. ring.
  - destruct c as [|v c].
    + exists []. split; [reflexivity|]. intros. cbn [poly]. ring.
    + exists (poly (v :: c) a :: q). split; [cbn [length pred] in *; now rewrite L|]. intros x.
      change (poly (u :: v :: c) x) with (u + x * poly (v :: c) x). change (poly (u :: v :: c) a) with (u + a * poly (v :: c) a).
      change (poly (poly (v :: c) a :: q) x) with (poly (v :: c) a + x * poly q x). rewrite E. ring.
Qed.
Lemma roots n : forall c, (length c <= n)%nat -> (forall j, (j < n)%nat -> poly c (INR j) = 0) -> forall x, poly c x = 0.
Proof.
  induction n as [|n IH]; intros c L H x.
  - destruct c; [reflexivity|cbn in L; lia].
  - destruct (poly_div c (INR n)) as (q & Lq & E). rewrite E, (H n) by lia. rewrite IH; [ring|lia|].
    intros j Hj. pose proof (E (INR j)) as Ej. rewrite (H n), (H j) in Ej by lia.
    assert (INR j < INR n) by (apply lt_INR; lia). assert (Ez : (INR j - INR n) * poly q (INR j) = 0) by lra.
    apply Rmult_integral in Ez. destruct Ez; lra.
Qed.
Lemma interp_unique n f c r : (length c <= n)%nat -> (forall j, (j < n)%nat -> poly c (INR j) = f j) -> interpolate n f r = poly c r.
Proof.
  intros L H. destruct (interp_poly n f) as (d & Ld & E).
  assert (Z : poly (padd d (pscale (-1) c)) r = 0).
  { apply (roots n); [apply padd_len; [auto|now rewrite pscale_len]|]. intros j Hj. rewrite padd_val, pscale_val, <- E, interp_node, H by auto. ring. }
  rewrite padd_val, pscale_val, <- E in Z. lra.
Qed.
Lemma unique_l M c r : (3 <= length M)%nat -> SpecMomic.allPos M -> (length c <= points (length M) r)%nat ->
  (forall j, (j < points (length M) r)%nat -> poly c (INR j) = ln (el M j) / ln 10) ->
  exists row, set_diffTable (N:=XR) (length M) (map Fin M) = Ok row /\ momMr (N:=XR) (length M) row (Fin r) = Fin (Rpower 10 (poly c r)).
Proof.
  intros HL HP Lc H. destruct (C38_l M HL HP) as (row & E & Er & _). exists row. split; [exact E|]. rewrite Er. f_equal.
  unfold momentAt, Rpower. f_equal. assert (L10 : 0 < ln 10). { rewrite <- ln_1. apply ln_increasing; lra. }
  rewrite (interp_local _ _ (fun j => ln (el M j) / ln 10 * ln 10)) by (intros; field; lra).
  rewrite interp_scal. f_equal. now apply interp_unique.
Qed.
Lemma exists_l M r : exists c, (length c <= points (length M) r)%nat /\
  forall j, (j < points (length M) r)%nat -> poly c (INR j) = ln (el M j) / ln 10.
Proof.
  destruct (interp_poly (points (length M) r) (fun j => ln (el M j) / ln 10)) as (c & L & E). exists c. split; [exact L|].
  intros j Hj. rewrite <- E. now apply interp_node.
Qed.

(** ** surfaces *)
Lemma sphere_pow x : 0 < x -> sphere x = areaCoef * Rpower x (2 / 3).
Proof. intros H. rewrite <- areaCoef_sphere by auto. do 2 f_equal. lra. Qed.
Lemma areaCoef_pos' : 0 < areaCoef.
Proof. unfold areaCoef. apply Rmult_lt_0_compat; [exact piC_pos|apply exp_pos]. Qed.
Lemma equal_exp a b : 0 < a -> 0 < b -> equalSurface a b = areaCoef * exp (ln a + 2 / 3 * (ln b - ln a)).
Proof.
  intros Ha Hb. unfold equalSurface. assert (0 < b / a) by (apply Rdiv_lt_0_compat; auto). rewrite sphere_pow by auto.
  unfold Rpower. unfold Rdiv at 2. rewrite ln_mult, ln_Rinv by (auto; now apply Rinv_0_lt_compat).
  rewrite exp_plus, exp_ln by auto. replace (2 / 3 * (ln b + - ln a)) with (2 / 3 * (ln b - ln a)) by ring. ring.
Qed.
Lemma tangent t : 0 < t -> Rpower t (2 / 3) <= 1 + 2 / 3 * (t - 1).
Proof.
  intros Ht. set (u := Rpower t (1 / 3)). assert (0 < u) by apply exp_pos.
  assert (E2 : Rpower t (2 / 3) = u * u). { unfold u. now rewrite Rpower_third2. }
  assert (E3 : t = u * u * u). { unfold u. rewrite <- !Rpower_plus. replace (1 / 3 + 1 / 3 + 1 / 3) with 1 by field. now rewrite Rpower_1. }
  rewrite E2. rewrite E3 at 1. assert (0 <= (u - 1) * (u - 1) * (2 * u + 1)). { apply Rmult_le_pos; [apply Rle_0_sqr|lra]. } lra.
Qed.
Lemma Sum_le n f h : (forall i, (i < n)%nat -> f i <= h i) -> Sum n f <= Sum n h.
Proof. induction n as [|n IH]; intros H; [unfold Sum, SpecRates.sumR; cbn; lra|]. rewrite !Sum_S. apply Rplus_le_compat; auto. Qed.
Lemma jensen w x : population w x -> w <> [] -> surfaceOf w x <= equalSurface (nodeMoment w x 0) (nodeMoment w x 1).
Proof.
  intros (L & W & X & _) N. 
  assert (Wi : forall i, (i < length w)%nat -> 0 < el w i) by (intros; apply W; unfold el; now apply nth_In).
  assert (Xi : forall i, (i < length w)%nat -> 0 < el x i) by (intros; apply X; unfold el; apply nth_In; lia).
  assert (P : forall f, (forall i, (i < length w)%nat -> 0 < f i) -> 0 < Sum (length w) f).
  { intros f. destruct w as [|a w']; [congruence|]. cbn [length]. generalize (length w'). clear. intros n. induction n as [|n IH]; intros H.
    - rewrite Sum_S. unfold Sum, SpecRates.sumR. cbn. specialize (H 0%nat ltac:(lia)). lra.
    - rewrite Sum_S. specialize (IH ltac:(intros; apply H; lia)). specialize (H (S n) ltac:(lia)). lra. }
  set (A := nodeMoment w x 0). set (B := nodeMoment w x 1).
  assert (EA : A = Sum (length w) (el w)). { unfold A, nodeMoment. apply Sum_ext. intros. cbn [pow]. ring. }
  assert (EB : B = Sum (length w) (fun i => el w i * el x i)). { unfold B, nodeMoment. apply Sum_ext. intros. cbn [pow]. ring. }
  assert (HA : 0 < A) by (rewrite EA; auto). assert (HB : 0 < B). { rewrite EB. apply P. intros. apply Rmult_lt_0_compat; auto. }
  set (m := B / A). assert (Hm : 0 < m) by (apply Rdiv_lt_0_compat; auto).
  pose proof areaCoef_pos' as HC. unfold surfaceOf, equalSurface. fold m. rewrite sphere_pow by auto.
  set (q := Rpower m (2 / 3)). assert (0 < q) by apply exp_pos.
  apply Rle_trans with (Sum (length w) (fun i => areaCoef * q * (1 / 3) * el w i + areaCoef * q * (2 / 3) / m * (el w i * el x i))).
  - apply Sum_le. intros i Hi. rewrite sphere_pow by auto.
    assert (T : Rpower (el x i) (2 / 3) <= q * (1 + 2 / 3 * (el x i / m - 1))).
    { replace (el x i) with (m * (el x i / m)) at 1 by (field; lra). rewrite <- Rpower_mult_distr; [|auto|apply Rdiv_lt_0_compat; auto].
      apply Rmult_le_compat_l; [lra|]. apply tangent, Rdiv_lt_0_compat; auto. }
    apply Rle_trans with (el w i * (areaCoef * (q * (1 + 2 / 3 * (el x i / m - 1))))).
    + apply Rmult_le_compat_l; [apply Rlt_le; auto|]. apply Rmult_le_compat_l; [lra|auto].
    + right. field. lra.
  - rewrite Sum_add, !Sum_scal, <- EA, <- EB. right. unfold m. field. split; lra.
Qed.

(** ** the call *)
Lemma growing (m : model (N:=XR)) s g k M st eig : readyMomic m s g k M -> SpecMomic.allPos M -> mN k = N_NONE -> mO k = O_NONE ->
  exists m' y, setSourceTerms st eig m s = Ok (st, m', s) /\ soots m' = map Fin y /\ length y = length M /\
  el y 1 = kgrow k g (el M 0) (el M 1) * (areaCoef * momentAt M (2 / 3)).
Proof.
  intros RM AP HN HO. assert (HP : isP k = false) by (unfold isP; now rewrite HN).
  destruct (momic_run m s g k M st eig RM AP) as (m' & E & S1 & _). { rewrite HP. discriminate. }
  assert (Es : outS k g s = s). { unfold outS. now rewrite HP. } rewrite Es in E.
  set (o := nucl k g (momHits k g (dimerMass g) (momicMom M) 1)) in *.
  exists m', (map (momicSource k g M o) (seq 0 (length M))). split; [exact E|]. split; [now rewrite map_map|]. split; [now rewrite map_length, seq_length|].
  destruct RM as (_ & _ & _ & _ & _ & _ & _ & L).
  unfold el at 1. rewrite nth_indep with (d' := momicSource k g M o 0) by (rewrite map_length, seq_length; lia).
  rewrite map_nth, seq_nth by lia. cbn [plus]. unfold momicSource, surfPart, condPart. rewrite HP, momCoag_1.
  assert (EJ : oJ o = 0). { unfold o, nucl, isP. rewrite HN. cbn. unfold Jnuc. rewrite HN. reflexivity. }
  assert (EK : koxid k g (el M 0) (el M 1) = 0) by (unfold koxid; rewrite HO; reflexivity).
  rewrite EJ, EK. change (INR 1) with 1. replace (1 - 1 / 3) with (2 / 3) by lra. ring.
Qed.

Lemma sum3 f : Sum 3 f = f 0%nat + f 1%nat + f 2%nat.
Proof. rewrite !Sum_S. unfold Sum, SpecRates.sumR. cbn [map seq fold_right]. ring. Qed.
Lemma sum4 f : Sum 4 f = f 0%nat + f 1%nat + f 2%nat + f 3%nat.
Proof. rewrite Sum_S, sum3. ring. Qed.
Lemma points_up n : points n (2 / 3) = n.
Proof. unfold points. destruct (Rle_dec 0 (2 / 3)); [reflexivity|lra]. Qed.
Lemma at3 a b c : momentAt [a; b; c] (2 / 3) = exp (ln a + 2 / 3 * (ln b - ln a) - 1 / 9 * (ln a + ln c - 2 * ln b)).
Proof.
  unfold momentAt. rewrite points_up. cbn [length]. unfold interpolate. rewrite sum3. f_equal.
  unfold el. cbn [gbin fdiff nth]. change (INR 0) with 0. change (INR 1) with 1. change (INR 2) with 2. field.
Qed.
Lemma at4 a b c d : momentAt [a; b; c; d] (2 / 3) =
  exp (ln a + 2 / 3 * (ln b - ln a) + (4 * (ln b + ln d - 2 * ln c) - 13 * (ln a + ln c - 2 * ln b)) / 81).
Proof.
  unfold momentAt. rewrite points_up. cbn [length]. unfold interpolate. rewrite sum4. f_equal.
  unfold el. cbn [gbin fdiff nth]. change (INR 0) with 0. change (INR 1) with 1. change (INR 2) with 2. replace (INR 3) with 3 by (cbn; ring). field.
Qed.
Lemma ln_div a b : 0 < a -> 0 < b -> ln (a / b) = ln a - ln b.
Proof. intros. unfold Rdiv. rewrite ln_mult, ln_Rinv by (auto; now apply Rinv_0_lt_compat). ring. Qed.
Lemma ln_sq a : 0 < a -> ln (a ^ 2) = 2 * ln a.
Proof. intros. cbn [pow]. rewrite Rmult_1_r, ln_mult by auto. ring. Qed.
Lemma ln_le_iff a b : 0 < a -> 0 < b -> (ln a <= ln b <-> a <= b).
Proof.
  intros Ha Hb. split; intros [H|H]; [left; now apply ln_lt_inv|right; now apply ln_inv|left; now apply ln_increasing|right; now rewrite H].
Qed.
Lemma exp_le_iff a b : exp a <= exp b <-> a <= b.
Proof. split; intros [H|H]; [left; now apply exp_lt_inv|right; now apply exp_inv|left; now apply exp_increasing|right; now rewrite H]. Qed.

Lemma three_l (m : model (N:=XR)) s g k a b c st eig : readyMomic m s g k [a; b; c] -> SpecMomic.allPos [a; b; c] -> mN k = N_NONE -> mO k = O_NONE ->
  b ^ 2 <= a * c ->
  exists m' y, setSourceTerms st eig m s = Ok (st, m', s) /\ soots m' = map Fin y /\ length y = 3%nat /\ el y 1 <= kgrow k g a b * equalSurface a b.
Proof.
  intros RM AP HN HO H. destruct (growing m s g k _ st eig RM AP HN HO) as (m' & y & E & S1 & L & Y). exists m', y. split; [exact E|]. split; [exact S1|]. split; [exact L|].
  assert (Ha : 0 < a) by (apply AP; cbn; auto). assert (Hb : 0 < b) by (apply AP; cbn; auto). assert (Hc : 0 < c) by (apply AP; cbn; auto).
  rewrite Y. unfold el at 1 2. cbn [nth]. destruct RM as (_ & _ & _ & _ & _ & V & _).
  apply Rmult_le_compat_l; [eapply growFormula_nneg; eauto|]. rewrite equal_exp by auto. apply Rmult_le_compat_l; [apply Rlt_le, areaCoef_pos'|].
  rewrite at3. apply (proj2 (exp_le_iff _ _)). apply (proj2 (ln_le_iff (b ^ 2) (a * c) ltac:(now apply pow_lt) ltac:(now apply Rmult_lt_0_compat))) in H. rewrite ln_sq, ln_mult in H by auto. lra.
Qed.
Lemma four_l (m : model (N:=XR)) s g k a b c d st eig : readyMomic m s g k [a; b; c; d] -> SpecMomic.allPos [a; b; c; d] -> mN k = N_NONE -> mO k = O_NONE ->
  0 < kgrow k g a b ->
  exists m' y, setSourceTerms st eig m s = Ok (st, m', s) /\ soots m' = map Fin y /\ length y = 4%nat /\
    (el y 1 <= kgrow k g a b * equalSurface a b <-> (b * d / c ^ 2) ^ 4 <= (a * c / b ^ 2) ^ 13).
Proof.
  intros RM AP HN HO HK. destruct (growing m s g k _ st eig RM AP HN HO) as (m' & y & E & S1 & L & Y). exists m', y. split; [exact E|]. split; [exact S1|]. split; [exact L|].
  assert (Ha : 0 < a) by (apply AP; cbn; auto). assert (Hb : 0 < b) by (apply AP; cbn; auto). assert (Hc : 0 < c) by (apply AP; cbn; auto). assert (Hd : 0 < d) by (apply AP; cbn; auto).
  rewrite Y. unfold el at 1 2. cbn [nth]. rewrite equal_exp, at4 by auto. pose proof areaCoef_pos' as HC.
  assert (P1 : 0 < b * d / c ^ 2) by (apply Rdiv_lt_0_compat; [now apply Rmult_lt_0_compat|now apply pow_lt]).
  assert (P2 : 0 < a * c / b ^ 2) by (apply Rdiv_lt_0_compat; [now apply Rmult_lt_0_compat|now apply pow_lt]).
  rewrite <- (ln_le_iff ((b * d / c ^ 2) ^ 4)) by (apply pow_lt; assumption). rewrite <- (Rpower_pow 4), <- (Rpower_pow 13) by assumption.
  unfold Rpower. rewrite !ln_exp, !ln_div, !ln_mult, !ln_sq by (auto; try (now apply Rmult_lt_0_compat); now apply pow_lt).
  replace (INR 4) with 4 by (cbn; ring). replace (INR 13) with 13 by (cbn; ring).
  split; intros H.
  - apply Rmult_le_reg_l in H; [|assumption]. apply Rmult_le_reg_l in H; [|assumption]. apply (proj1 (exp_le_iff _ _)) in H. lra.
  - apply Rmult_le_compat_l; [lra|]. apply Rmult_le_compat_l; [lra|]. apply (proj2 (exp_le_iff _ _)). lra.
Qed.

(** ** cases *)
Lemma grow_case M : (3 <= length M <= 4)%nat -> (forall y, In y M -> 0 <= y) ->
  exists (m : model (N:=XR)) s, constructEnum P_MOMIC (length M) N_NONE G_LIN O_NONE C_FM 0 T_NONE (Fin 2) 100 = Ok m /\
    readyMomic m s demoGas (mkMechs N_NONE G_LIN O_NONE C_FM 1) M.
Proof.
  intros HL HP.
  assert (HE : exists m : model (N:=XR), constructEnum (N:=XR) P_MOMIC (length M) N_NONE G_LIN O_NONE C_FM 0 T_NONE (Fin 2) 100 = Ok m /\ momicArrays m (length M)).
  { destruct HL as (L1 & L2). remember (length M) as q. clear -L1 L2.
    do 5 (destruct q as [|q]; [try lia; eexists; (split; [reflexivity|]); (eexists; eexists; eexists; eexists; split; [reflexivity|split; reflexivity])|]). lia. }
  destruct HE as (m & E & MA).
  destruct (demo_any (newState (length M) 0) M []) as (s & C & V & _); try reflexivity; auto. { intros ? []. }
  exists m, s. split; [exact E|]. destruct (built _ _ _ _ _ _ _ _ _ _ _ E) as (H & Hp & _).
  do 3 (split; [assumption|]). split; [|split; [left; reflexivity|split; [exact V|split; [|lia]]]].
  - split; [left; repeat split; discriminate|]. cbn [mN mG mO mC mF]. do 3 (split; [discriminate|]). split; [discriminate|lra].
  - intros [H1|H1]; discriminate.
Qed.
Lemma grow_some a b : 0 < kgrow (mkMechs N_NONE G_LIN O_NONE C_FM 1) demoGas a b.
Proof.
  unfold kgrow. cbn [mG growFormula]. apply Rmult_lt_0_compat.
  - apply Rmult_lt_0_compat; [apply Rmult_lt_0_compat; [lra|apply exp_pos]|]. unfold conc.
    apply Rdiv_lt_0_compat; [|unfold molarMass, massC, massH, massO; cbn [atomsC atomsH atomsO]; lra]. cbn [gRho gY demoGas]. lra.
  - pose proof massC_pos. lra.
Qed.
Lemma two_moments : momentsOf [1; 1 / 1000] [1; 10] 4 = [1001 / 1000; 101 / 100; 11 / 10; 2].
Proof.
  unfold momentsOf, nodeMoment. cbn [seq map length]. rewrite !Sum_S. unfold Sum, SpecRates.sumR. cbn [seq map fold_right].
  unfold el. cbn [nth pow]. repeat (f_equal; try lra).
Qed.
Lemma over_l : exists w x (m : model (N:=XR)) s g k, population w x /\ readyMomic m s g k (momentsOf w x 4) /\ forall st eig,
  exists m' y, setSourceTerms st eig m s = Ok (st, m', s) /\ soots m' = map Fin y /\
    forall w' x', population w' x' -> nodeMoment w' x' 0 = nodeMoment w x 0 -> nodeMoment w' x' 1 = nodeMoment w x 1 ->
      kgrow k g (nodeMoment w x 0) (nodeMoment w x 1) * surfaceOf w' x' < el y 1.
Proof.
  pose proof two_moments as EM.
  assert (A : SpecMomic.allPos [1001 / 1000; 101 / 100; 11 / 10; 2]) by (intros z [<-|[<-|[<-|[<-|[]]]]]; lra).
  destruct (grow_case [1001 / 1000; 101 / 100; 11 / 10; 2]) as (m & s & E & RM). { cbn; lia. } { intros z Hz. apply Rlt_le. auto. }
  exists [1; 1 / 1000], [1; 10], m, s, demoGas, (mkMechs N_NONE G_LIN O_NONE C_FM 1).
  split.
  { split; [reflexivity|]. split; [intros z [<-|[<-|[]]]; lra|]. split; [intros z [<-|[<-|[]]]; lra|].
    constructor; [intros [H|[]]; lra|]. constructor; [intros []|constructor]. }
  rewrite EM. split; [exact RM|]. intros st eig.
  destruct (four_l m s _ _ _ _ _ _ st eig RM A eq_refl eq_refl (grow_some _ _)) as (m' & y & E1 & S1 & _ & Y).
  exists m', y. split; [exact E1|]. split; [exact S1|]. intros w' x' P E0 E2.
  assert (M0 : nodeMoment [1; 1 / 1000] [1; 10] 0 = 1001 / 1000) by (apply (f_equal (fun l => nth 0 l 0)) in EM; exact EM).
  assert (M1 : nodeMoment [1; 1 / 1000] [1; 10] 1 = 101 / 100) by (apply (f_equal (fun l => nth 1 l 0)) in EM; exact EM).
  rewrite M0, M1 in *. set (K := kgrow _ _ _ _) in *. assert (0 < K) by apply grow_some.
  apply Rle_lt_trans with (K * equalSurface (1001 / 1000) (101 / 100)).
  - apply Rmult_le_compat_l; [lra|]. rewrite <- E0, <- E2. apply jensen; [exact P|]. intros ->. unfold nodeMoment, Sum, SpecRates.sumR in E0. cbn in E0. lra.
  - apply Rnot_le_lt. intros H1. apply Y in H1. revert H1. apply Rlt_not_le. lra.
Qed.
