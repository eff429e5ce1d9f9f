(** Proofs about the coagulation kernels. *)
From Coq Require Import ZArith List Bool Reals Lra Lia.
From Verif Require Import Num Defs State Coag XR XRLemmas SpecChem SpecCoag.
Import ListNotations.

(** ** Symmetry, any arithmetic with commutative + and * *)
Section Sym.
Context {N : Num}.
Context (addC : forall x y : num, nadd x y = nadd y x) (mulC : forall x y : num, nmul x y = nmul y x).

Lemma tooSmallC m1 m2 : tooSmall m1 m2 = tooSmall m2 m1.
Proof. apply orb_comm. Qed.

Lemma coag_sym c s m1 m2 : coagRate c s m1 m2 = coagRate c s m2 m1.
Proof.
  unfold coagRate, kernelFM, kernelCONT, kernelHM, kernelFUCHS.
  rewrite (tooSmallC m2 m1).
  destruct (co_class c); auto; destruct (tooSmall m1 m2); auto; cbv zeta.
  - rewrite (addC (npow m2 onethird)), (addC (ndiv (nZ 1) m2)). reflexivity.
  - rewrite (addC (npow (nmul (nZ 6) m2 / _)%num onethird)).
    match goal with |- nmul (nmul _ (nadd ?a ?b)) _ = _ => rewrite (addC a b) end. reflexivity.
  - rewrite (addC (npow (nmul (nZ 6) m2 / _)%num onethird)). rewrite (mulC m2 m1), (addC m2 m1).
    match goal with |- context [nadd (ndiv (nadd ?a ?b) ?d) ?e] => rewrite (addC (ndiv (nadd a b) d) e) end. reflexivity.
  - set (d1 := npow (nmul (nZ 6) m1 / _)%num onethird). set (d2 := npow (nmul (nZ 6) m2 / _)%num onethird).
    set (c1 := nsqrt (ndiv _ (nmul M_PI m1))). set (c2 := nsqrt (ndiv _ (nmul M_PI m2))).
    set (mfp := getGasMeanFreePath s).
    set (Dd := fun d : num => ndiv (nmul (ndiv (nmul kb (T s)) (nmul (nmul (nZ 3) M_PI) (muGas s)))
           (nadd (nZ 1) (nmul (ndiv (nmul (nZ 2) mfp) d) (nadd (nlit 1257 (-3)) (nmul (nlit 4 (-1)) (nexp (ndiv (nlit (-11) (-1)) (ndiv (nmul (nZ 2) mfp) d)))))))) d).
    fold (Dd d1) (Dd d2).
    set (L := fun d c0 : num => ndiv (nmul (nZ 8) (Dd d)) (nmul M_PI c0)).
    fold (L d1 c1) (L d2 c2).
    set (G := fun d l : num => nsub (nmul (ndiv root2 (nmul (nmul (nZ 3) d) l)) (nsub (npow (nadd d l) (nZ 3)) (npow (nadd (nmul d d) (nmul l l)) (nlit 15 (-1))))) (nmul root2 d)).
    fold (G d1 (L d1 c1)) (G d2 (L d2 c2)).
    rewrite (addC d2 d1), (addC (Dd d2) (Dd d1)), (addC (nmul c2 c2)).
    rewrite (addC (nmul (G d2 (L d2 c2)) (G d2 (L d2 c2)))). reflexivity.
Qed.
End Sym.

(** ** Values on extended reals *)
Local Open Scope R_scope.

Lemma rpi_piC : rpi = piC. Proof. reflexivity. Qed.
Lemma rkb_boltz : rkb = boltzmann. Proof. reflexivity. Qed.
Lemma rNa_avo : rNa = avogadro. Proof. reflexivity. Qed.
Lemma rmmin_cut : rmmin = massCutoff. Proof. reflexivity. Qed.
Lemma piC_pos : 0 < piC. Proof. rewrite <- rpi_piC. apply rpi_pos. Qed.
Lemma boltz_pos : 0 < boltzmann. Proof. rewrite <- rkb_boltz. apply rkb_pos. Qed.
Lemma avo_pos : 0 < avogadro. Proof. rewrite <- rNa_avo. apply rNa_pos. Qed.
Lemma cut_pos : 0 < massCutoff. Proof. rewrite <- rmmin_cut. apply rmmin_pos. Qed.
#[global] Hint Resolve piC_pos boltz_pos avo_pos cut_pos : xpos.
Global Opaque piC boltzmann avogadro massCutoff.
Ltac cvals := rewrite ?rpi_piC, ?rkb_boltz, ?rNa_avo, ?rmmin_cut.

Lemma diam_pos m : 0 < diam m. Proof. apply exp_pos. Qed.
#[global] Hint Resolve diam_pos : xpos.

Lemma tooSmall_ge m1 m2 : massCutoff < m1 -> massCutoff < m2 -> tooSmall (N:=XR) (Fin m1) (Fin m2) = false.
Proof. intros. unfold tooSmall. xsimp. cvals. rewrite !xleb_false by auto. reflexivity. Qed.
Lemma tooSmall_lt m1 m2 : m1 <= massCutoff \/ m2 <= massCutoff -> tooSmall (N:=XR) (Fin m1) (Fin m2) = true.
Proof.
  intros H. unfold tooSmall. xsimp. cvals. apply orb_true_iff.
  destruct H; [left|right]; now apply xleb_true.
Qed.

Section Vals.
Context (s : state (N:=XR)) (t p rho mu : R) (G : gasState s t p rho mu).
Let Ht : 0 < t. Proof. apply G. Qed.
Let Hp : 0 < p. Proof. apply G. Qed.
Let Hrho : 0 < rho. Proof. apply G. Qed.
Let Hmu : 0 < mu. Proof. apply G. Qed.
Let ET : T s = Fin t. Proof. apply G. Qed.
Let Emu : muGas s = Fin mu. Proof. apply G. Qed.

Lemma mfp_val : getGasMeanFreePath s = Fin (meanFreePath p rho mu).
Proof.
  destruct G as (_ & _ & _ & _ & _ & EP & ER & EM & EW).
  unfold getGasMeanFreePath. rewrite EM, ER, EW, ET. xsimp. cvals. xsimp.
  unfold meanFreePath. do 3 f_equal. field. repeat split; nz.
Qed.
Lemma mfp_pos : 0 < meanFreePath p rho mu.
Proof. unfold meanFreePath. pos. Qed.
Lemma knudsen_pos m : 0 < knudsen p rho mu m.
Proof. unfold knudsen. pose proof mfp_pos. pos. Qed.

Lemma diam_val m : 0 < m ->
  @npow XR (@ndiv XR (@nmul XR (nZ 6) (Fin m)) (@nmul XR M_PI rhoSoot)) onethird = Fin (diam m).
Proof. intros. xsimp. cvals. reflexivity. Qed.

Lemma slipLinear_pos m : 0 < slipLinear p rho mu m.
Proof. unfold slipLinear. pose proof (knudsen_pos m). lra. Qed.
Lemma slipExp_pos m : 0 < slipExp p rho mu m.
Proof. unfold slipExp. cbv zeta. pose proof (knudsen_pos m). pose proof (exp_pos (- (11 / 10) / knudsen p rho mu m)). nra. Qed.
Lemma slip_lt m : slipExp p rho mu m < slipLinear p rho mu m.
Proof.
  unfold slipExp, slipLinear. cbv zeta. pose proof (knudsen_pos m) as K.
  assert (E : exp (- (11 / 10) / knudsen p rho mu m) < 1).
  { rewrite <- exp_0. apply exp_increasing.
    assert (0 < (11 / 10) / knudsen p rho mu m) by (apply Rdiv_lt_0_compat; lra).
    unfold Rdiv in *. lra. }
  nra.
Qed.

Lemma betaFM_pos f m1 m2 : 0 < f -> 0 < m1 -> 0 < m2 -> 0 < betaFM f t m1 m2.
Proof.
  intros. unfold betaFM, enhancement. pose proof (diam_pos m1). pose proof (diam_pos m2).
  assert (0 < (diam m1 + diam m2) ^ 2) by (apply pow_lt; lra). pos.
Qed.
Lemma betaC_pos C m1 m2 : 0 < C m1 -> 0 < C m2 -> 0 < betaC C t mu m1 m2.
Proof. intros. unfold betaC. pos. Qed.

Lemma Rpower_third2 x : Rpower x (1 / 3) * Rpower x (1 / 3) = Rpower x (2 / 3).
Proof. rewrite <- Rpower_plus. f_equal. lra. Qed.

Lemma diam_split m : 0 < m -> diam m = Rpower (6 / (piC * sootDensity)) (1 / 3) * Rpower m (1 / 3).
Proof.
  intros. unfold diam, sootDensity. rewrite Rpower_mult_distr; try pos. f_equal. field. nz.
Qed.

Lemma FM_val c f m1 m2 : co_FM c = Fin f -> massCutoff < m1 -> massCutoff < m2 ->
  kernelFM c s (Fin m1) (Fin m2) = Fin (betaFM f t m1 m2).
Proof.
  intros Ef H1 H2. pose proof cut_pos.
  unfold kernelFM. rewrite tooSmall_ge by auto. unfold getKfm. rewrite Ef, ET. xsimp. cvals. xsimp.
  f_equal. unfold betaFM. rewrite !diam_split by lra. unfold sootDensity, enhancement.
  set (a := Rpower (6 / (piC * 1850)) (1 / 3)). set (x := Rpower m1 (1 / 3)). set (y := Rpower m2 (1 / 3)).
  rewrite <- (Rpower_third2 (6 / (piC * 1850))). fold a.
  rewrite (sqrt_mult (piC * boltzmann * t / 2)) by nneg.
  replace (5 / 10 * piC * boltzmann * t) with (piC * boltzmann * t / 2) by field. ring.
Qed.

Lemma CONT_val m1 m2 : massCutoff < m1 -> massCutoff < m2 ->
  kernelCONT s (Fin m1) (Fin m2) = Fin (betaC (slipLinear p rho mu) t mu m1 m2).
Proof.
  intros H1 H2. pose proof cut_pos.
  unfold kernelCONT. rewrite tooSmall_ge by auto. cbv zeta. rewrite !diam_val by lra. rewrite mfp_val.
  unfold getKc. rewrite ET, Emu. pose proof mfp_pos. xsimp. cvals. xsimp. f_equal.
Qed.

Lemma HM_val c f m1 m2 : 0 < f -> co_FM c = Fin f -> massCutoff < m1 -> massCutoff < m2 ->
  kernelHM c s (Fin m1) (Fin m2) = Fin (betaHM f t p rho mu m1 m2).
Proof.
  intros Hf Ef H1 H2. pose proof cut_pos.
  assert (P1 : 0 < m1) by lra. assert (P2 : 0 < m2) by lra.
  unfold kernelHM. rewrite tooSmall_ge by auto. cbv zeta. rewrite !diam_val by lra. rewrite mfp_val.
  rewrite ET, Emu, Ef. pose proof mfp_pos. xsimp. cvals. xsimp.
  pose proof (betaFM_pos f m1 m2 Hf P1 P2) as PF.
  pose proof (betaC_pos (slipExp p rho mu) m1 m2 (slipExp_pos m1) (slipExp_pos m2)) as PC.
  match goal with |- Fin (?a * ?b / _) = _ =>
    assert (EA : a = betaFM f t m1 m2); [|assert (EB : b = betaC (slipExp p rho mu) t mu m1 m2)]
  end.
  - unfold betaFM, enhancement.
    replace (piC * boltzmann * t * (5 / 10) / (m1 * m2 / (m1 + m2)))
      with (piC * boltzmann * t / 2 * (1 / m1 + 1 / m2)) by (field; repeat split; nz).
    ring.
  - unfold betaC, slipExp. cbv zeta. unfold knudsen. replace (-11 / 10) with (- (11 / 10)) by lra. f_equal. f_equal. field. nz.
  - rewrite EA, EB. f_equal. unfold betaHM. field. repeat split; lra.
Qed.

Lemma Rpower_3 x : 0 < x -> Rpower x 3 = x ^ 3.
Proof. intros. rewrite <- (Rpower_pow 3) by auto. f_equal. cbn. lra. Qed.

Lemma sqrt_sum_nneg a b : 0 <= sqrt (a ^ 2 + b ^ 2). Proof. apply sqrt_pos. Qed.

Lemma diffusivity_pos m : 0 < diffusivity t p rho mu m.
Proof. unfold diffusivity. pose proof (slipExp_pos m). pos. Qed.
Lemma speed_pos m : 0 < m -> 0 < thermalSpeed t m.
Proof. intros. unfold thermalSpeed. pos. Qed.

Lemma FUCHS_form c m1 m2 : massCutoff < m1 -> massCutoff < m2 ->
  let d12 := diam m1 + diam m2 in
  let D12 := diffusivity t p rho mu m1 + diffusivity t p rho mu m2 in
  let g12 := sqrt (fuchsG t p rho mu m1 ^ 2 + fuchsG t p rho mu m2 ^ 2) in
  let c12 := sqrt (thermalSpeed t m1 ^ 2 + thermalSpeed t m2 ^ 2) in
  kernelFUCHS c s (Fin m1) (Fin m2) =
  xdiv (Fin (2 * piC * D12 * d12))
    (xadd (Fin (d12 / (d12 + 2 * g12)))
          (xdiv (xmul (xdiv (Fin 8) (xmul (Fin (22 / 10)) (co_FM c))) (Fin D12)) (Fin (c12 * d12)))).
Proof.
  intros H1 H2. cbv zeta. pose proof cut_pos.
  assert (P1 : 0 < m1) by lra. assert (P2 : 0 < m2) by lra.
  unfold kernelFUCHS. rewrite tooSmall_ge by auto. cbv zeta. rewrite !diam_val by lra. rewrite mfp_val.
  rewrite ET, Emu. pose proof mfp_pos.
  assert (ED : forall m, 0 < m ->
    xdiv (xmul (xdiv (xmul (@kb XR) (Fin t)) (xmul (xmul (Fin 3) (@M_PI XR)) (Fin mu)))
      (xadd (Fin 1) (xmul (xdiv (xmul (Fin 2) (Fin (meanFreePath p rho mu))) (Fin (diam m)))
        (xadd (Fin (1257 / 1000)) (xmul (Fin (4 / 10)) (xexp (xdiv (Fin (-11 / 10))
            (xdiv (xmul (Fin 2) (Fin (meanFreePath p rho mu))) (Fin (diam m)))))))))) (Fin (diam m))
    = Fin (diffusivity t p rho mu m)).
  { intros m Pm. xsimp. cvals. xsimp. f_equal. unfold diffusivity, slipExp, knudsen. cbv zeta.
    replace (-11 / 10) with (- (11 / 10)) by lra. reflexivity. }
  xcbn. change (rlit (-11) (-1)) with (-11 / 10). change (rlit 1257 (-3)) with (1257 / 1000).
  change (rlit 4 (-1)) with (4 / 10). change (rlit 15 (-1)) with (15 / 10).
  change (rlit 1 0) with 1. change (rlit 2 0) with 2. change (rlit 3 0) with 3. change (rlit 8 0) with 8.
  rewrite !ED by lra. clear ED.
  set (D1 := diffusivity t p rho mu m1). set (D2 := diffusivity t p rho mu m2).
  assert (PD1 : 0 < D1) by apply diffusivity_pos. assert (PD2 : 0 < D2) by apply diffusivity_pos.
  assert (EC : forall m, 0 < m -> xsqrt (xdiv (xmul (xmul (Fin 8) (@kb XR)) (Fin t)) (xmul (@M_PI XR) (Fin m))) = Fin (thermalSpeed t m)).
  { intros m Pm. xsimp. cvals. reflexivity. }
  rewrite !EC by lra. clear EC.
  pose proof (speed_pos m1 P1) as PS1. pose proof (speed_pos m2 P2) as PS2.
  set (c1 := thermalSpeed t m1) in *. set (c2 := thermalSpeed t m2) in *.
  pose proof (diam_pos m1) as Pd1. pose proof (diam_pos m2) as Pd2.
  assert (EG : forall d D c0, 0 < d -> 0 < D -> 0 < c0 ->
    xsub (xmul (xdiv (@root2 XR) (xmul (xmul (Fin 3) (Fin d)) (xdiv (xmul (Fin 8) (Fin D)) (xmul (@M_PI XR) (Fin c0)))))
       (xsub (xpow (xadd (Fin d) (xdiv (xmul (Fin 8) (Fin D)) (xmul (@M_PI XR) (Fin c0)))) (Fin 3))
             (xpow (xadd (xmul (Fin d) (Fin d)) (xmul (xdiv (xmul (Fin 8) (Fin D)) (xmul (@M_PI XR) (Fin c0)))
                   (xdiv (xmul (Fin 8) (Fin D)) (xmul (@M_PI XR) (Fin c0))))) (Fin (15 / 10))))) (xmul (@root2 XR) (Fin d))
    = Fin (let l := 8 * D / (piC * c0) in sqrt 2 / (3 * d * l) * ((d + l) ^ 3 - Rpower (d ^ 2 + l ^ 2) (3 / 2)) - sqrt 2 * d)).
  { intros d D c0 Pd PD Pc. cbv zeta.
    assert (PL : 0 < 8 * D / (rpi * c0)) by pos.
    replace (xdiv (xmul (Fin 8) (Fin D)) (xmul (@M_PI XR) (Fin c0))) with (Fin (8 * D / (rpi * c0))) by (xsimp; reflexivity).
    cvals. rewrite rpi_piC in PL. set (l := 8 * D / (piC * c0)) in *. xsimp. rewrite Rpower_3 by lra.
    f_equal. f_equal. f_equal. f_equal. f_equal; [f_equal; ring|lra]. }
  rewrite !EG by auto. clear EG.
  change (let l := 8 * D1 / (piC * c1) in sqrt 2 / (3 * diam m1 * l) * ((diam m1 + l) ^ 3 - Rpower (diam m1 ^ 2 + l ^ 2) (3 / 2)) - sqrt 2 * diam m1)
    with (fuchsG t p rho mu m1).
  change (let l := 8 * D2 / (piC * c2) in sqrt 2 / (3 * diam m2 * l) * ((diam m2 + l) ^ 3 - Rpower (diam m2 ^ 2 + l ^ 2) (3 / 2)) - sqrt 2 * diam m2)
    with (fuchsG t p rho mu m2).
  fold D1 D2 c1 c2.
  set (g1 := fuchsG t p rho mu m1). set (g2 := fuchsG t p rho mu m2).
  set (d1 := diam m1) in *. set (d2 := diam m2) in *.
  replace (g1 ^ 2 + g2 ^ 2) with (g1 * g1 + g2 * g2) by ring.
  replace (c1 ^ 2 + c2 ^ 2) with (c1 * c1 + c2 * c2) by ring.
  assert (Pg : 0 <= g1 * g1 + g2 * g2) by nra. assert (Pc : 0 < c1 * c1 + c2 * c2) by nra.
  pose proof (sqrt_pos (g1 * g1 + g2 * g2)) as Qg. pose proof (sqrt_lt_R0 _ Pc) as Qc.
  xcbn. xconst. repeat xstep. cvals. f_equal.
Qed.

Lemma d12_pos m1 m2 : 0 < diam m1 + diam m2.
Proof. pose proof (diam_pos m1); pose proof (diam_pos m2); lra. Qed.
Lemma D12_pos m1 m2 : 0 < diffusivity t p rho mu m1 + diffusivity t p rho mu m2.
Proof. pose proof (diffusivity_pos m1); pose proof (diffusivity_pos m2); lra. Qed.
Lemma c12_pos m1 m2 : 0 < m1 -> 0 < m2 -> 0 < sqrt (thermalSpeed t m1 ^ 2 + thermalSpeed t m2 ^ 2).
Proof. intros H1 H2. apply sqrt_lt_R0. pose proof (speed_pos _ H1); pose proof (speed_pos _ H2). nra. Qed.

Lemma FUCHS_val c f m1 m2 : 0 < f -> co_FM c = Fin f -> massCutoff < m1 -> massCutoff < m2 ->
  kernelFUCHS c s (Fin m1) (Fin m2) = Fin (betaFuchs f t p rho mu m1 m2).
Proof.
  intros Hf Ef H1 H2. pose proof cut_pos. rewrite FUCHS_form by auto. cbv zeta. rewrite Ef. unfold betaFuchs. cbv zeta.
  assert (P1 : 0 < m1) by lra. assert (P2 : 0 < m2) by lra.
  pose proof (d12_pos m1 m2). pose proof (D12_pos m1 m2). pose proof (c12_pos m1 m2 P1 P2).
  pose proof (sqrt_sum_nneg (fuchsG t p rho mu m1) (fuchsG t p rho mu m2)).
  set (d12 := diam m1 + diam m2) in *.
  set (D12 := diffusivity t p rho mu m1 + diffusivity t p rho mu m2) in *.
  set (g12 := sqrt (fuchsG t p rho mu m1 ^ 2 + fuchsG t p rho mu m2 ^ 2)) in *.
  set (c12 := sqrt (thermalSpeed t m1 ^ 2 + thermalSpeed t m2 ^ 2)) in *.
  repeat xstep. unfold enhancement. f_equal. f_equal. f_equal. field. repeat split; nz.
Qed.

(** 1/Fuchs = 1/FM + a positive term that does not depend on the multiplier *)
Definition fuchsRest (m1 m2 : R) : R :=
  / (2 * piC * (diffusivity t p rho mu m1 + diffusivity t p rho mu m2) *
     (diam m1 + diam m2 + 2 * sqrt (fuchsG t p rho mu m1 ^ 2 + fuchsG t p rho mu m2 ^ 2))).
Lemma fuchsRest_pos m1 m2 : 0 < fuchsRest m1 m2.
Proof.
  unfold fuchsRest. pose proof (d12_pos m1 m2). pose proof (D12_pos m1 m2).
  pose proof (sqrt_sum_nneg (fuchsG t p rho mu m1) (fuchsG t p rho mu m2)).
  apply Rinv_0_lt_compat. apply Rmult_lt_0_compat; [|lra]. pose proof piC_pos. apply Rmult_lt_0_compat; lra.
Qed.
Lemma speeds m1 m2 : 0 < m1 -> 0 < m2 ->
  sqrt (thermalSpeed t m1 ^ 2 + thermalSpeed t m2 ^ 2) = 4 / piC * sqrt (piC * boltzmann * t / 2 * (1 / m1 + 1 / m2)).
Proof.
  intros P1 P2. unfold thermalSpeed. rewrite <- !Rsqr_pow2. rewrite !Rsqr_sqrt by nneg.
  pose proof piC_pos. rewrite <- (sqrt_Rsqr (4 / piC)) by nneg. rewrite <- sqrt_mult_alt.
  - f_equal. unfold Rsqr. field. repeat split; nz.
  - unfold Rsqr. assert (0 < 4 / piC) by pos. nra.
Qed.
Lemma fuchs_inv f m1 m2 : 0 < f -> 0 < m1 -> 0 < m2 ->
  betaFuchs f t p rho mu m1 m2 = / (/ betaFM f t m1 m2 + fuchsRest m1 m2).
Proof.
  intros Hf P1 P2. unfold betaFuchs, betaFM, fuchsRest. cbv zeta.
  pose proof (d12_pos m1 m2). pose proof (D12_pos m1 m2).
  pose proof (sqrt_sum_nneg (fuchsG t p rho mu m1) (fuchsG t p rho mu m2)).
  rewrite speeds by auto.
  assert (0 < sqrt (piC * boltzmann * t / 2 * (1 / m1 + 1 / m2))) by pos.
  set (q := sqrt (piC * boltzmann * t / 2 * (1 / m1 + 1 / m2))) in *.
  set (d12 := diam m1 + diam m2) in *.
  set (D12 := diffusivity t p rho mu m1 + diffusivity t p rho mu m2) in *.
  set (g12 := sqrt (fuchsG t p rho mu m1 ^ 2 + fuchsG t p rho mu m2 ^ 2)) in *.
  unfold enhancement. pose proof piC_pos.
  assert (0 < 22 / 10 * f * q * d12 ^ 2) by (assert (0 < d12 ^ 2) by (apply pow_lt; auto); pos).
  rewrite <- (Rinv_inv (2 * piC * D12 * d12 / _)). f_equal. field. repeat split; nz.
Qed.


(** *** consequences *)
Lemma inv_lt_sum a b : 0 < a -> 0 < b -> 0 < / (/ a + b) < a.
Proof.
  intros Ha Hb. assert (0 < / a) by pos. split; [pos|].
  rewrite <- (Rinv_inv a) at 2. apply Rinv_lt_contravar; [|lra]. pos.
Qed.
Lemma inv_lt_mono a a' b : 0 < a -> a < a' -> 0 < b -> / (/ a + b) < / (/ a' + b).
Proof.
  intros Ha Hl Hb. assert (0 < / a') by (apply Rinv_0_lt_compat; lra). assert (0 < / a) by pos.
  assert (/ a' < / a) by (apply Rinv_lt_contravar; [|lra]; apply Rmult_lt_0_compat; lra).
  apply Rinv_lt_contravar; [|lra]. apply Rmult_lt_0_compat; lra.
Qed.

Lemma FM_scale f k m1 m2 : betaFM (k * f) t m1 m2 = k * betaFM f t m1 m2.
Proof. unfold betaFM. ring. Qed.
Lemma C_exp_pos m1 m2 : 0 < betaC (slipExp p rho mu) t mu m1 m2.
Proof. apply betaC_pos; apply slipExp_pos. Qed.
Lemma C_lin_pos m1 m2 : 0 < betaC (slipLinear p rho mu) t mu m1 m2.
Proof. apply betaC_pos; apply slipLinear_pos. Qed.
Lemma C_exp_lin m1 m2 : betaC (slipExp p rho mu) t mu m1 m2 < betaC (slipLinear p rho mu) t mu m1 m2.
Proof.
  unfold betaC. pose proof (slip_lt m1) as L1. pose proof (slip_lt m2) as L2.
  pose proof (diam_pos m1). pose proof (diam_pos m2).
  apply Rmult_lt_compat_r; [lra|]. apply Rmult_lt_compat_l; [pos|].
  apply Rplus_lt_compat; apply Rmult_lt_compat_r; auto; pos.
Qed.

Lemma kernels c f m1 m2 : 0 < f -> co_FM c = Fin f -> massCutoff < m1 -> massCutoff < m2 ->
  coagRate c s (Fin m1) (Fin m2) =
  Fin match co_class c with
      | C_FM => betaFM f t m1 m2
      | C_CONTINUUM => betaC (slipLinear p rho mu) t mu m1 m2
      | C_HM => betaHM f t p rho mu m1 m2
      | C_FUCHS => betaFuchs f t p rho mu m1 m2
      | _ => 0
      end.
Proof.
  intros. unfold coagRate. destruct (co_class c); try reflexivity.
  - now apply FM_val. - now apply CONT_val. - now apply HM_val. - now apply FUCHS_val.
Qed.

Lemma C13_pos c f m1 m2 : 0 < f -> co_FM c = Fin f -> massCutoff < m1 -> massCutoff < m2 ->
  co_class c = C_FM \/ co_class c = C_CONTINUUM \/ co_class c = C_HM \/ co_class c = C_FUCHS ->
  exists v, coagRate c s (Fin m1) (Fin m2) = Fin v /\ 0 < v.
Proof.
  intros Hf Ef H1 H2 Hc. rewrite (kernels c f) by auto. eexists; split; [reflexivity|].
  pose proof cut_pos. assert (P1 : 0 < m1) by lra. assert (P2 : 0 < m2) by lra.
  pose proof (betaFM_pos f m1 m2 Hf P1 P2).
  destruct Hc as [-> |[-> |[-> | ->]]]; auto.
  - apply C_lin_pos.
  - unfold betaHM. pose proof (C_exp_pos m1 m2). apply inv_lt_sum; pos.
  - rewrite fuchs_inv by auto. pose proof (fuchsRest_pos m1 m2). apply inv_lt_sum; auto.
Qed.

Lemma C14_limits f m1 m2 : 0 < f -> massCutoff < m1 -> massCutoff < m2 ->
  exists fm cont hm fu hc,
    coagRate (with_f C_FM f) s (Fin m1) (Fin m2) = Fin fm /\
    coagRate (with_f C_CONTINUUM f) s (Fin m1) (Fin m2) = Fin cont /\
    coagRate (with_f C_HM f) s (Fin m1) (Fin m2) = Fin hm /\
    coagRate (with_f C_FUCHS f) s (Fin m1) (Fin m2) = Fin fu /\
    hm < fm /\ hm < cont /\ fu < fm /\ 0 < hc < cont /\ / hm = / fm + / hc.
Proof.
  intros Hf H1 H2. rewrite !(kernels _ f) by auto. cbn [co_class with_f set_FM_multiplier newCoag].
  pose proof cut_pos. assert (P1 : 0 < m1) by lra. assert (P2 : 0 < m2) by lra.
  exists (betaFM f t m1 m2), (betaC (slipLinear p rho mu) t mu m1 m2), (betaHM f t p rho mu m1 m2),
    (betaFuchs f t p rho mu m1 m2), (betaC (slipExp p rho mu) t mu m1 m2).
  do 4 (split; [reflexivity|]).
  pose proof (betaFM_pos f m1 m2 Hf P1 P2) as PF. pose proof (C_exp_pos m1 m2) as PC.
  pose proof (C_exp_lin m1 m2) as PL. pose proof (fuchsRest_pos m1 m2) as PR.
  split; [apply inv_lt_sum; pos|]. split.
  - unfold betaHM. rewrite Rplus_comm. eapply Rlt_trans; [apply inv_lt_sum; pos|auto].
  - split; [rewrite fuchs_inv by auto; apply inv_lt_sum; auto|]. split; auto.
    unfold betaHM. now rewrite Rinv_inv.
Qed.

Lemma C15_scaling f k m1 m2 : 0 < f -> 1 < k -> massCutoff < m1 -> massCutoff < m2 ->
  exists fm cont hm hm' fu fu',
    coagRate (with_f C_FM f) s (Fin m1) (Fin m2) = Fin fm /\
    coagRate (with_f C_FM (k * f)) s (Fin m1) (Fin m2) = Fin (k * fm) /\
    coagRate (with_f C_CONTINUUM f) s (Fin m1) (Fin m2) = Fin cont /\
    coagRate (with_f C_CONTINUUM (k * f)) s (Fin m1) (Fin m2) = Fin cont /\
    coagRate (with_f C_HM f) s (Fin m1) (Fin m2) = Fin hm /\
    coagRate (with_f C_HM (k * f)) s (Fin m1) (Fin m2) = Fin hm' /\
    coagRate (with_f C_FUCHS f) s (Fin m1) (Fin m2) = Fin fu /\
    coagRate (with_f C_FUCHS (k * f)) s (Fin m1) (Fin m2) = Fin fu' /\
    hm < hm' < k * hm /\ fu < fu' < k * fu.
Proof.
  intros Hf Hk H1 H2. assert (Hf' : 0 < k * f) by nra.
  rewrite !(kernels (with_f _ (k * f)) (k * f)) by auto. rewrite !(kernels (with_f _ f) f) by auto.
  cbn [co_class with_f set_FM_multiplier newCoag].
  pose proof cut_pos. assert (P1 : 0 < m1) by lra. assert (P2 : 0 < m2) by lra.
  do 6 eexists. split; [reflexivity|]. rewrite FM_scale. do 7 (split; [reflexivity|]).
  unfold betaHM. rewrite !fuchs_inv by auto. rewrite FM_scale.
  pose proof (betaFM_pos f m1 m2 Hf P1 P2) as PF. pose proof (C_exp_pos m1 m2) as PC.
  pose proof (fuchsRest_pos m1 m2) as PR.
  assert (A : forall a b, 0 < a -> 0 < b -> / (/ a + b) < / (/ (k * a) + b) < k * / (/ a + b)).
  { intros a b Ha Hb. assert (a < k * a) by nra. split; [apply inv_lt_mono; auto|].
    assert (E : k * / (/ a + b) = / (/ (k * a) + b / k)) by (assert (0 < / a) by pos; field; repeat split; nz).
    rewrite E. assert (0 < / (k * a)) by (apply Rinv_0_lt_compat; nra).
    assert (0 < b / k < b).
    { split; [pos|]. apply (Rmult_lt_reg_r k); [lra|]. unfold Rdiv. rewrite Rmult_assoc, Rinv_l by lra. nra. }
    apply Rinv_lt_contravar; [|lra]. apply Rmult_lt_0_compat; lra. }
  split; apply A; auto. pos.
Qed.

Lemma C15_zero_multiplier k m1 m2 : k = C_FM \/ k = C_HM \/ k = C_FUCHS ->
  coagRate (with_f k 0) s (Fin m1) (Fin m2) = Fin 0.
Proof.
  intros Hk. destruct (Rlt_dec massCutoff m1) as [H1|H1]; [destruct (Rlt_dec massCutoff m2) as [H2|H2]|];
    try (destruct Hk as [-> |[-> | ->]]; unfold coagRate; cbn [co_class with_f set_FM_multiplier newCoag];
         unfold kernelFM, kernelHM, kernelFUCHS; rewrite tooSmall_lt by lra; reflexivity).
  pose proof cut_pos. assert (P1 : 0 < m1) by lra. assert (P2 : 0 < m2) by lra.
  destruct Hk as [-> |[-> | ->]]; unfold coagRate; cbn [co_class with_f set_FM_multiplier newCoag].
  - rewrite (FM_val _ 0) by auto. unfold betaFM. f_equal. ring.
  - unfold kernelHM. rewrite tooSmall_ge by auto. cbv zeta. rewrite !diam_val by lra. rewrite mfp_val.
    rewrite ET, Emu. cbn [co_FM set_FM_multiplier with_f newCoag]. pose proof mfp_pos. xsimp. cvals. xsimp.
    f_equal. unfold Rdiv. ring.
  - rewrite FUCHS_form by auto. cbv zeta. cbn [co_FM set_FM_multiplier with_f newCoag].
    pose proof (d12_pos m1 m2). pose proof (D12_pos m1 m2). pose proof (c12_pos m1 m2 P1 P2).
    repeat xstep. rewrite Rmult_0_r, xdiv_0. rewrite signed_pos by lra.
    change (xmul PInf (Fin ?x)) with (signed x NaN). rewrite signed_pos by auto.
    change (xdiv PInf (Fin ?x)) with (signed x PInf). rewrite signed_pos by pos.
    reflexivity.
Qed.
End Vals.

Lemma C13_zero (c : coagObj (N:=XR)) s m1 m2 : m1 <= massCutoff \/ m2 <= massCutoff ->
  coagRate c s (Fin m1) (Fin m2) = Fin 0.
Proof.
  intros H. unfold coagRate, kernelFM, kernelCONT, kernelHM, kernelFUCHS.
  rewrite tooSmall_lt by auto. destruct (co_class c); reflexivity.
Qed.
