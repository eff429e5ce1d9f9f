(** Source terms of the quadrature method on extended reals. *)
From Coq Require Import ZArith List Bool Reals Lra Lia.
From Verif Require Import Num Defs State Binomial Coag Nucl Growth Oxid Tar SootModel Qmom Calls XR XRLemmas NumLaws SpecBinomial BinomialProofs
  SpecChem SpecCoag SpecValid SpecRates SpecGas SpecPah SpecPsd SpecSect SpecQmom CoagProofs StateXR ValidProofs InterpProofs GasProofs RateProofs PsdProofs PahProofs MonoProofs ChemAll SectProofs SectMain QmomProofs.
Import ListNotations.
Local Open Scope R_scope.

Lemma npow_nat x k : 0 <= x -> @npow XR (Fin x) (nn k) = Fin (x ^ k).
Proof.
  intros Hx. unfold nn. change (@nlit XR (Z.of_nat k) 0) with (Fin (IZR (Z.of_nat k))). rewrite <- INR_IZR_INZ.
  change (@npow XR) with xpow. unfold xpow. destruct (Req_EM_T (INR k) 0) as [E|E].
  - apply (INR_eq k 0) in E. rewrite E. reflexivity.
  - destruct (Rlt_dec 0 x) as [P|P]; [now rewrite Rpower_pow|].
    assert (x = 0) by lra. subst x. destruct (Req_EM_T 0 0); [|lra]. pose proof (pos_INR k). destruct (Rlt_dec 0 (INR k)); [|lra].
    rewrite pow_i; [reflexivity|]. destruct k; [cbn in E; lra|lia].
Qed.
Lemma nn_val k : @nn XR k = Fin (INR k).
Proof. unfold nn. change (@nlit XR (Z.of_nat k) 0) with (Fin (IZR (Z.of_nat k))). now rewrite <- INR_IZR_INZ. Qed.

(** ** binomial theorem *)
Lemma binom_thm x y r : (x + y) ^ r = Sum (S r) (fun k => IZR (choose r k) * x ^ k * y ^ (r - k)).
Proof.
  induction r as [|r IH]; [unfold Sum, sumR; cbn; ring|].
  cbn [pow]. rewrite IH, Rmult_plus_distr_r. rewrite <- !Sum_scal.
  rewrite (Sum_first (S (S r))) by lia. replace (S (S r) - 1)%nat with (S r) by lia.
  rewrite (Sum_ext (S r) (fun j => IZR (choose (S r) (S j)) * x ^ S j * y ^ (S r - S j))
     (fun j => x * (IZR (choose r j) * x ^ j * y ^ (r - j)) + IZR (choose r (S j)) * x ^ S j * y ^ (r - j))).
  2: { intros j Hj. cbn [choose]. rewrite plus_IZR. cbn [pow Nat.sub]. ring. }
  rewrite Sum_add.
  rewrite (Sum_S r (fun j => IZR (choose r (S j)) * x ^ S j * y ^ (r - j))). rewrite (choose_gt r (S r)) by lia.
  rewrite (Sum_first (S r) (fun j => y * _)) by lia. replace (S r - 1)%nat with r by lia.
  rewrite (Sum_ext r (fun j => y * (IZR (choose r (S j)) * x ^ S j * y ^ (r - S j))) (fun j => IZR (choose r (S j)) * x ^ S j * y ^ (r - j))).
  2: { intros j Hj. replace (r - j)%nat with (S (r - S j)) by lia. cbn [pow]. ring. }
  replace (choose (S r) 0) with 1%Z by reflexivity. replace (choose r 0) with 1%Z by (destruct r; reflexivity).
  rewrite !Nat.sub_0_r. cbn [pow]. ring.
Qed.
Lemma inner_sum x y r : (2 <= r)%nat -> sumR (map (fun k => IZR (choose r k) * x ^ k * y ^ (r - k)) (seq 1 (r - 1))) = (x + y) ^ r - x ^ r - y ^ r.
Proof.
  intros H. rewrite binom_thm. rewrite Sum_S, (Sum_first r) by lia. rewrite choose_diag. replace (choose r 0) with 1%Z by (destruct r; reflexivity).
  rewrite Nat.sub_diag, Nat.sub_0_r. cbn [pow]. unfold Sum. rewrite <- seq_shift, map_map. ring_simplify.
  reflexivity.
Qed.
Definition cross (x y : R) (r : nat) : R := (x + y) ^ r - x ^ r - y ^ r.
Lemma binom_val r k : (k <= r <= 34)%nat -> @binomial_coefficient XR (Z.of_nat r) (Z.of_nat k) = Ok (Fin (IZR (choose r k))).
Proof.
  intros H. rewrite C07_exact by lia. rewrite !Nat2Z.id. destruct (Z.leb_spec (Z.of_nat k) (Z.of_nat r)); [|lia]. destruct (Z.leb_spec (Z.of_nat r) 34); [reflexivity|lia].
Qed.
Lemma s0_val r : @s0 XR r = Fin (match r with O => -1 | _ => 0 end). Proof. destruct r; reflexivity. Qed.
Lemma Sij_val r x y : (r <> 1)%nat -> (r <= 34)%nat -> 0 <= x -> 0 <= y -> qmomSij (N:=XR) r (Fin x) (Fin y) = Ok (Fin (cross x y r)).
Proof.
  intros N1 H Hx Hy. unfold qmomSij. rewrite s0_val.
  rewrite (foldM_sum (fun k => IZR (choose r k) * x ^ k * y ^ (r - k))).
  - unfold cross. destruct r as [|[|r]]; [cbn; do 2 f_equal; ring|lia|]. rewrite inner_sum by lia. do 2 f_equal. ring.
  - intros k b Hk. rewrite binom_val by lia. cbn [bind]. rewrite !npow_nat by auto. fin. reflexivity.
Qed.
Lemma Sii_val r x : (r <> 1)%nat -> (r <= 34)%nat -> qmomSii (N:=XR) r = Ok (Fin (cross 1 1 r)) /\ cross x x r = cross 1 1 r * x ^ r.
Proof.
  intros N1 H. split.
  - unfold qmomSii. rewrite s0_val. rewrite (foldM_sum (fun k => IZR (choose r k))).
    + rewrite (map_ext _ (fun k => IZR (choose r k) * 1 ^ k * 1 ^ (r - k))) by (intros; rewrite !pow1; ring).
      unfold cross. destruct r as [|[|r]]; [cbn; do 2 f_equal; ring|lia|]. rewrite inner_sum by lia. do 2 f_equal. ring.
    + intros k b Hk. rewrite binom_val by lia. reflexivity.
  - unfold cross. replace (x + x) with ((1 + 1) * x) by ring. rewrite Rpow_mult_distr, pow1. ring.
Qed.

(** strict lower triangle and half the diagonal *)
Lemma Sum_low n (h : nat -> nat -> R) : (forall i j, (i < n)%nat -> (j < n)%nat -> h i j = h j i) ->
  Sum n (fun i => Sum i (h i)) + Sum n (fun i => 1 / 2 * h i i) = 1 / 2 * Sum n (fun i => Sum n (h i)).
Proof.
  induction n as [|n IH]; intros Sy; [cbn; ring|].
  rewrite !Sum_S. rewrite (Sum_ext n (fun i => Sum (S n) (h i)) (fun i => Sum n (h i) + h n i)).
  2: { intros i Hi. rewrite Sum_S. rewrite (Sy i n) by lia. reflexivity. }
  rewrite Sum_add. specialize (IH ltac:(intros; apply Sy; lia)). rewrite (Sum_ext n (h n) (fun i => h n i)) by auto. lra.
Qed.

Lemma Mr_loop r : forall w x acc, length x = length w -> qmomMrLoop (N:=XR) (Fin r) (Fin acc) (map Fin w) (map Fin x) =
  Ok (Fin (if allPos w x then acc + Sum (length w) (fun i => el w i * Rpower (el x i) r) else 0)).
Proof.
  induction w as [|a w IH]; intros [|b x] acc L; try discriminate L.
  - cbn. do 2 f_equal. unfold Sum, sumR. cbn. ring.
  - cbn [map qmomMrLoop allPos]. change (@nleb XR) with xleb. change (@nZ XR 0) with (Fin 0). unfold xleb.
    destruct (Rle_dec a 0), (Rlt_dec 0 a); try lra; cbn [andb]; [reflexivity|].
    destruct (Rle_dec b 0), (Rlt_dec 0 b); try lra; cbn [andb]; [reflexivity|].
    change (@npow XR) with xpow. rewrite xpow_fin by auto. fin. rewrite IH by (cbn in L; congruence).
    destruct (allPos w x); [|reflexivity]. do 2 f_equal. cbn [length]. rewrite (Sum_first (S (length w))) by lia. replace (S (length w) - 1)%nat with (length w) by lia.
    unfold el. cbn [nth]. ring.
Qed.

Section Nodes.
Context (s : state (N:=XR)) (g : gas) (k : mechs) (soot w x : list R).
Context (V : valid s g soot) (OC : mC k <> C_size) (OF : 0 < mF k) (NW : nonneg w) (NX : nonneg x) (Lx : length x = length w).
Context (EW : wts s = map Fin w) (EA : absc s = map Fin x).
Let c := with_f (mC k) (mF k).
Lemma getw i : (i < length w)%nat -> vget (wts s) i = Ok (Fin (el w i)). Proof. intros. rewrite EW. now apply vget_fin. Qed.
Lemma getx i : (i < length w)%nat -> vget (absc s) i = Ok (Fin (el x i)). Proof. intros. rewrite EA. apply vget_fin. lia. Qed.
Lemma wnn i : 0 <= el w i.
Proof. unfold el. destruct (Nat.lt_ge_cases i (length w)); [apply NW; now apply nth_In|rewrite nth_overflow by auto; lra]. Qed.
Lemma xnn i : 0 <= el x i.
Proof. unfold el. destruct (Nat.lt_ge_cases i (length x)); [apply NX; now apply nth_In|rewrite nth_overflow by auto; lra]. Qed.
Lemma lena : length (absc s) = length w. Proof. rewrite EA, map_length. exact Lx. Qed.

Lemma coag_moment r : (r <= 34)%nat -> qmomCoag (N:=XR) c s r = Ok (Fin (smoluchowski k g w x r)).
Proof.
  intros Hr. unfold qmomCoag. destruct (Nat.eqb_spec r 1) as [->|N1].
  - change (@nZ XR 0) with (Fin 0). do 2 f_equal. unfold smoluchowski. rewrite Sum_0; [ring|]. intros i _. apply Sum_0. intros j _. ring.
  - rewrite lena. set (h := fun i j => kernel k g (el x i) (el x j) * el w i * el w j * cross (el x i) (el x j) r).
    change (@nZ XR 0) with (Fin 0). rewrite (foldM_sum (fun i => Sum i (h i))).
    2: { intros i b Hi. rewrite (foldM_sum (h i)); [reflexivity|]. intros j b' Hj.
         rewrite !getx, !getw by lia. cbn [bind]. rewrite Sij_val by (auto; apply xnn). cbn [bind]. unfold c. rewrite (kernel_val s g soot) by auto. fin. reflexivity. }
    cbn [bind]. destruct (Sii_val r 0 N1 Hr) as (E & _). rewrite E. cbn [bind].
    rewrite (foldM_sum (fun i => 1 / 2 * h i i)).
    2: { intros i b Hi. rewrite !getx, !getw by lia. cbn [bind]. unfold c. rewrite (kernel_val s g soot) by auto.
         assert (EP : (if Nat.eqb r 0 return @num XR then nZ 1 else @npow XR (Fin (el x i)) (nn r)) = Fin (el x i ^ r)).
         { destruct (Nat.eqb_spec r 0) as [->|]; [reflexivity|]. apply npow_nat, xnn. }
         rewrite EP. unfold h. destruct (Sii_val r (el x i) N1 Hr) as (_ & ->). xsimp. do 2 f_equal. field. }
    do 2 f_equal. unfold smoluchowski. change (fun i => Sum (length w) (fun j => kernel k g (el x i) (el x j) * el w i * el w j * ((el x i + el x j) ^ r - el x i ^ r - el x j ^ r))) with (fun i => Sum (length w) (h i)).
    rewrite <- Sum_low.
    + fold (Sum (length w) (fun i => 1 / 2 * h i i)). rewrite Rplus_0_l. f_equal. destruct (length w) as [|n]; [reflexivity|].
      rewrite (Sum_first (S n)) by lia. replace (S n - 1)%nat with n by lia. unfold Sum at 2. cbn [seq map]. unfold sumR at 2. cbn [fold_right].
      rewrite Rplus_0_l. unfold Sum at 2. rewrite <- seq_shift, map_map. reflexivity.
    + intros i j _ _. unfold h. rewrite (kernel_sym s g soot k (el x i)) by auto. unfold cross. rewrite (Rplus_comm (el x j)). ring.
Qed.
Lemma coag_throws r : (35 <= r)%nat -> (Z.of_nat r < 2 ^ 32)%Z -> qmomCoag (N:=XR) c s r = Throw ERunBinomial.
Proof.
  intros Hr Hz. assert (T : forall q, (1 <= q < r)%nat -> @binomial_coefficient XR (Z.of_nat r) (Z.of_nat q) = Throw ERunBinomial).
  { intros q Hq. apply binom_throw; lia. }
  assert (TS : forall x y, qmomSij (N:=XR) r x y = Throw ERunBinomial).
  { intros a b. unfold qmomSij. replace (seq 1 (r - 1)) with (1%nat :: seq 2 (r - 2)). 2: { replace (r - 1)%nat with (S (r - 2)) by lia. reflexivity. }
    cbn [foldM]. rewrite T by lia. reflexivity. }
  assert (TI : qmomSii (N:=XR) r = Throw ERunBinomial).
  { unfold qmomSii. replace (seq 1 (r - 1)) with (1%nat :: seq 2 (r - 2)). 2: { replace (r - 1)%nat with (S (r - 2)) by lia. reflexivity. }
    cbn [foldM]. rewrite T by lia. reflexivity. }
  pose proof getx as GX. unfold qmomCoag. destruct (Nat.eqb_spec r 1) as [|_]; [lia|]. rewrite lena. destruct (length w) as [|[|n]] eqn:EL.
  - cbn [seq foldM Nat.sub bind]. rewrite TI. reflexivity.
  - cbn [seq foldM Nat.sub bind]. rewrite TI. reflexivity.
  - replace (seq 1 (S (S n) - 1)) with (1%nat :: seq 2 n) by (replace (S (S n) - 1)%nat with (S n) by lia; reflexivity).
    cbn [foldM seq]. rewrite !GX by lia. cbn [bind]. rewrite TS. reflexivity.
Qed.

Lemma Mr_val r : qmomMr (N:=XR) (Fin r) (wts s) (absc s) = Ok (Fin (fracMoment w x r)).
Proof.
  unfold qmomMr. rewrite EW, EA. change (@nZ XR 0) with (Fin 0). rewrite Mr_loop by auto. unfold fracMoment. destruct (allPos w x); do 2 f_equal; ring.
Qed.
Lemma Acoef_val : @Acoef XR = Fin areaCoef.
Proof. unfold Acoef. xsimp. cvals. reflexivity. Qed.
Lemma surf_val on v r : (on = false -> v = 0) -> qmomSurf (N:=XR) on (Fin v) s r = Ok (Fin (v * areaCoef * INR r * fracMoment w x (INR r - 1 / 3))).
Proof.
  intros Z. unfold qmomSurf. destruct on; cbn [andb].
  - destruct (Nat.leb_spec 1 r).
    + rewrite nn_val. assert (E : @nsub XR (Fin (INR r)) onethird = Fin (INR r - 1 / 3)) by (xsimp; f_equal; unfold rlit; lra).
      rewrite E, Mr_val. cbn [bind]. rewrite Acoef_val. fin. reflexivity.
    + replace r with 0%nat by lia. change (@nZ XR 0) with (Fin 0). do 2 f_equal. cbn [INR]. ring.
  - rewrite Z by auto. change (@nZ XR 0) with (Fin 0). do 2 f_equal. ring.
Qed.
Lemma cnd_val (m : model (N:=XR)) o r : sm_coag m = c -> (isPAH m = true -> mDimer (sm_nucl m) = Fin (oMass o) /\ nDimer (sm_nucl m) = Fin (oConc o)) ->
  (isPAH m = false -> oMass o = 0) -> qmomCnd (N:=XR) m s r = Ok (Fin (condense k g w x o r)).
Proof.
  intros EC HP HN. unfold qmomCnd. destruct (isPAH m); cbn [andb].
  - destruct (Nat.leb_spec 1 r).
    + destruct (HP eq_refl) as (E1 & E2). rewrite lena, EC, E1, E2. change (@nZ XR 0) with (Fin 0).
      rewrite (foldM_sum (fun i => kernel k g (oMass o) (el x i) * el w i * el x i ^ (r - 1))).
      * cbn [bind]. rewrite nn_val. fin. do 2 f_equal. unfold condense, Sum. ring.
      * intros i b Hi. rewrite getx, getw by lia. cbn [bind]. unfold c. rewrite (kernel_val s g soot) by auto.
        assert (EP : (if Nat.eqb r 1 return @num XR then nZ 1 else if Nat.eqb r 2 then Fin (el x i) else @npow XR (Fin (el x i)) (nn (r - 1))) = Fin (el x i ^ (r - 1))).
        { destruct (Nat.eqb_spec r 1) as [->|]; [reflexivity|]. destruct (Nat.eqb_spec r 2) as [->|]; [cbn; f_equal; ring|]. apply npow_nat, xnn. }
        rewrite EP. fin. reflexivity.
    + replace r with 0%nat by lia. change (@nZ XR 0) with (Fin 0). do 2 f_equal. unfold condense. cbn [INR]. ring.
  - change (@nZ XR 0) with (Fin 0). do 2 f_equal. unfold condense. rewrite (HN eq_refl). ring.
Qed.
End Nodes.
