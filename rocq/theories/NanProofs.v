(** Proofs for C91: what becomes of soot variables that are not numbers. *)
From Coq Require Import ZArith List Bool Reals Lra Lia.
From Verif Require Import Num Defs State Coag Nucl Growth Oxid Tar SootModel Mono Qmom Logn Sect Calls XR F64 XRLemmas SpecState SpecFrame SpecPsd SpecSect SpecQmom SpecNan FrameMain SurfProofs.
Import ListNotations.

(** ** laws of NaN *)
Record nanLaws (N : Num) : Prop := mkNanLaws {
  nl_leb : forall x y : num, notNumber x \/ notNumber y -> nleb x y = false;
  nl_ltb : forall x y : num, notNumber x \/ notNumber y -> nltb x y = false;
  nl_mul : forall x y : num, notNumber y -> notNumber (nmul x y);
  nl_div : forall x y : num, notNumber y -> notNumber (ndiv x y);
  nl_fin : forall x : num, notNumber x -> nfin x = false;
  nl_le0 : forall x : num, nleb x (nZ 0) = true -> nltb (nZ 0) x = false }.
Lemma nan_xr (x : xr) : notNumber (N:=XR) x -> x = NaN.
Proof. unfold notNumber. cbn [neqb XR]. destruct x; cbn [xeqb]; try discriminate; [|reflexivity]. destruct (Req_EM_T r r); [discriminate|contradiction]. Qed.
Lemma nan_f64 lm (x : SpecFloat.spec_float) : notNumber (N:=F64 lm) x -> x = SpecFloat.S754_nan.
Proof.
  unfold notNumber. cbn [neqb F64]. unfold SpecFloat.SFeqb. destruct x as [[]|[]| |[] m e]; cbn; try discriminate; try reflexivity.
  all: rewrite ?Z.compare_refl, ?Pos.compare_cont_refl; cbn; discriminate.
Qed.
Lemma xr_nan : nanLaws XR.
Proof.
  split.
  - intros x y [H|H]; apply nan_xr in H; subst; [reflexivity|]. now destruct x.
  - intros x y [H|H]; apply nan_xr in H; subst; [reflexivity|]. now destruct x.
  - intros x y H; apply nan_xr in H; subst. now destruct x.
  - intros x y H; apply nan_xr in H; subst. now destruct x.
  - intros x H; apply nan_xr in H; subst. reflexivity.
  - intros x. change (xleb x (Fin 0) = true -> xltb (Fin 0) x = false). destruct x as [a| | |]; cbn [xleb xltb]; try discriminate; try reflexivity.
    destruct (Rle_dec a 0), (Rlt_dec 0 a); try discriminate; try reflexivity. lra.
Qed.
Lemma f64_nan lm : nanLaws (F64 lm).
Proof.
  split.
  - intros x y [H|H]; apply nan_f64 in H; subst; [reflexivity|]. now destruct x as [[]|[]| |[] ? ?].
  - intros x y [H|H]; apply nan_f64 in H; subst; [reflexivity|]. now destruct x as [[]|[]| |[] ? ?].
  - intros x y H; apply nan_f64 in H; subst. now destruct x.
  - intros x y H; apply nan_f64 in H; subst. now destruct x.
  - intros x H; apply nan_f64 in H; subst. reflexivity.
  - intros x. change (@nZ (F64 lm) 0) with (SpecFloat.S754_zero false). cbn [nleb nltb F64]. destruct x as [[]|[]| |[] ? ?]; cbn; try discriminate; reflexivity.
Qed.
Lemma ieee_nan N : ieee N -> nanLaws N.
Proof. intros [->|(lm & ->)]; [exact xr_nan|apply f64_nan]. Qed.

(** ** setState stores them *)
Section Accept.
Context {N : Num}.
Lemma clip_id (v : list num) : (forall x, In x v -> nltb x (nZ 0) = false) -> forall n, clipNeg n v = if (n <=? Z.of_nat (length v))%Z then Ok v else UB OutOfBounds.
Proof.
  intros H n. unfold clipNeg.
  assert (K : forall k i, foldM (fun v i => x <- vget v i ;; if nltb x (nZ 0) then vset v i (nZ 0) else Ok v) (seq i k) v = if Nat.leb k (length v - i) then Ok v else UB OutOfBounds).
  { induction k as [|k IH]; intros i; [reflexivity|]. cbn [seq foldM]. unfold vget. destruct (nth_error v i) as [x|] eqn:E; cbn [bind].
    - rewrite (H x) by (eapply nth_error_In; eauto). cbn [bind]. rewrite IH. assert (i < length v)%nat by (apply nth_error_Some; congruence).
      destruct (Nat.leb_spec k (length v - S i)), (Nat.leb_spec (S k) (length v - i)); auto; lia.
    - apply nth_error_None in E. destruct (Nat.leb_spec (S k) (length v - i)); [lia|reflexivity]. }
  rewrite K. destruct (Nat.leb_spec (Z.to_nat n) (length v - 0)), (Z.leb_spec n (Z.of_nat (length v))); auto; lia.
Qed.
Lemma accept_put s0 s t p rho mu yg yp l l' ns tv nt c : length l' = length l -> (forall x, In x l -> nltb x (nZ 0) = false) -> (forall x, In x l' -> nltb x (nZ 0) = false) ->
  call s0 (mkArgs t p rho mu yg yp l ns tv nt c) = SetOk s -> call s0 (mkArgs t p rho mu yg yp l' ns tv nt c) = SetOk (with_sootVar s l').
Proof.
  intros L H H'. unfold call, setState. cbn [aT aP arho amu ayGas ayPah asoot ansoot atar aNtar acMin]. cbv zeta.
  cbn [with_T with_P with_rhoGas with_muGas with_cMin with_MWGas with_nsoot with_sootVar with_Ntar with_tarVar with_yGas with_yPah T P rhoGas st_nsoot st_Ntar yPah].
  rewrite (clip_id l H), (clip_id l' H'), L.
  assert (X : forall v : list num, (forall x, In x v -> nltb x (nZ 0) = false) -> existsb (fun x => nltb x (nZ 0)) v = false).
  { intros v Hv. destruct (existsb (fun x => nltb x (nZ 0)) v) eqn:E; [|reflexivity]. apply existsb_exists in E. destruct E as (x & I & E). rewrite (Hv x I) in E. discriminate. }
  repeat match goal with |- (if ?b then _ else _) = _ -> _ => destruct b; try discriminate end.
  destruct (st_nsoot s0 <=? Z.of_nat (length l))%Z; [|discriminate]. rewrite (X l H), (X l' H').
  destruct (clipNeg (st_Ntar s0) tv); try discriminate.
  repeat match goal with |- (if ?b then _ else _) = _ -> _ => destruct b; try discriminate end.
  intros E. apply (f_equal (fun r => match r with SetOk x => x | _ => s end)) in E. subst s. reflexivity.
Qed.
End Accept.

(** ** what does not look at the soot variables *)
Section Same.
Context {N : Num}.
Local Open Scope num_scope.
Definition put (l : list num) (s : state) : state := with_sootVar s l.
Lemma nucl_put co nu s l : nuclRate (collSum co) nu (put l s) =
  match nuclRate (collSum co) nu s with Ok (x, nu', s', e) => Ok (x, nu', put l s', e) | Throw e => Throw e | UB u => UB u end.
Proof.
  unfold nuclRate. destruct (nu_class nu); try reflexivity.
  - unfold nuclLL, getGasSpC, put. cbn [yGas with_sootVar rhoGas T cMin]. destruct (vget (yGas s) (gasIdx C2H2)); reflexivity.
  - unfold nuclLIN, getGasSpC, put. cbn [yGas with_sootVar rhoGas T cMin]. destruct (vget (yGas s) (gasIdx C2H2)); reflexivity.
  - unfold nuclLINA1, getGasSpC, put. cbn [yGas with_sootVar rhoGas T cMin]. destruct (vget (yGas s) (gasIdx C6H6)); reflexivity.
  - unfold nuclPAH. change (pahLoop (put l s)) with (pahLoop s). destruct (pahLoop s) as [a| |]; cbn [bind]; try reflexivity.
    match goal with |- bind (bind ?u _) _ = match bind (bind ?v _) _ with _ => _ end => change u with v; destruct v as [[Ib eff]| |] end; reflexivity.
  - unfold nuclMB, getGasSpC, put. cbn [yGas with_sootVar rhoGas T cMin]. destruct (vget (yGas s) (gasIdx C2H2)); reflexivity.
  - unfold nuclFAIR, getGasSpC, put. cbn [yGas with_sootVar rhoGas T cMin]. destruct (vget (yGas s) (gasIdx C2H2)); reflexivity.
  - unfold nuclAJ_RED, put. cbn [tarVar with_sootVar T cMin mtar]. destruct (vget (tarVar s) 0); reflexivity.
  - unfold nuclBROWN, put. cbn [tarVar with_sootVar T cMin mtar]. destruct (vget (tarVar s) 0); reflexivity.
Qed.

Section Empty.
Context (a b a' b' : num) (r r' : list num) (HS : (nltb (nZ 0) a = false /\ nltb (nZ 0) a' = false) \/ (a' = a /\ b' = b)).
Let l := a :: b :: r.
Let l' := a' :: b' :: r'.
Lemma area_0 x y : nltb (nZ 0) x = false -> growArea x y = nZ 0. Proof. unfold growArea. now intros ->. Qed.
Lemma alpha_0 s x y x' y' : nltb (nZ 0) x = false -> nltb (nZ 0) x' = false -> hacaAlpha s x y = hacaAlpha s x' y'.
Proof. unfold hacaAlpha. now intros -> ->. Qed.
Lemma area_eq : growArea a b = growArea a' b'.
Proof. destruct HS as [(H & H')|(-> & ->)]; [|reflexivity]. now rewrite !area_0. Qed.
Lemma alpha_eq s : hacaAlpha s a b = hacaAlpha s a' b'.
Proof. destruct HS as [(H & H')|(-> & ->)]; [|reflexivity]. now apply alpha_0. Qed.
Lemma grow_put g v s : sv_psd v <> P_SECT -> growRate g v (put l s) = growRate g v (put l' s).
Proof.
  intros NS. assert (G : forall q, getM01 v (put q s) = (m0 <- vget q 0 ;; m1 <- vget q 1 ;; Ok (m0, m1))) by (intros; unfold getM01; now destruct (sv_psd v)).
  assert (HG : forall q, hacaM01 v (put q s) = (m0 <- vget q 0 ;; m1 <- vget q 1 ;; Ok (m0, m1))).
  { intros q. unfold hacaM01. cbn [put with_sootVar sootVar]. destruct (sv_psd v); try reflexivity. now destruct NS. }
  unfold growRate. destruct (gr_class g); try reflexivity.
  - unfold growLL. rewrite !G. cbn [l l' vget nth_error bind]. rewrite area_eq. reflexivity.
  - unfold growHACA. rewrite !HG. cbn [l l' vget nth_error bind]. change (hacaSites (put l s)) with (hacaSites s). change (hacaSites (put l' s)) with (hacaSites s).
    destruct (hacaSites s) as [[[x y] z]| |]; cbn [bind]; try reflexivity. change (hacaAlpha (put l s) a b) with (hacaAlpha s a b). change (hacaAlpha (put l' s) a' b') with (hacaAlpha s a' b').
    now rewrite (alpha_eq s).
  - unfold growMB. rewrite !G. cbn [l l' vget nth_error bind]. rewrite area_eq. reflexivity.
  - unfold growFAIR. rewrite !G. cbn [l l' vget nth_error bind]. rewrite area_eq. reflexivity.
Qed.
Lemma oxid_put o v s : sv_psd v <> P_SECT -> oxidRate o v (put l s) = oxidRate o v (put l' s).
Proof.
  intros NS. assert (G : forall q, getM01 v (put q s) = (m0 <- vget q 0 ;; m1 <- vget q 1 ;; Ok (m0, m1))) by (intros; unfold getM01; now destruct (sv_psd v)).
  unfold oxidRate. destruct (ox_class o); try reflexivity.
  - unfold oxidMB. rewrite !G. reflexivity.
  - unfold oxidHACA. rewrite !G. cbn [l l' vget nth_error bind]. change (hacaSites (put l s)) with (hacaSites s). change (hacaSites (put l' s)) with (hacaSites s).
    destruct (hacaSites s) as [[[x y] z]| |]; cbn [bind]; try reflexivity. change (hacaAlpha (put l s) a b) with (hacaAlpha s a b). change (hacaAlpha (put l' s) a' b') with (hacaAlpha s a' b').
    now rewrite (alpha_eq s).
Qed.
Lemma chem_put m s : sm_psd m <> P_SECT -> chemRates (collSum (sm_coag m)) m (put l' s) =
  match chemRates (collSum (sm_coag m)) m (put l s) with Ok (j, g, o, m', s') => Ok (j, g, o, m', put l' s') | Throw e => Throw e | UB u => UB u end.
Proof.
  intros NS. unfold chemRates, runNucl. rewrite !nucl_put. destruct (nuclRate (collSum (sm_coag m)) (sm_nucl m) s) as [[[[x nu] s1] e]| |]; cbn [bind]; try reflexivity.
  set (m1 := storeNucl m nu e). assert (NS1 : sv_psd (viewOf m1) <> P_SECT).
  { unfold m1, storeNucl, viewOf. cbn [sv_psd]. destruct (sm_priv (with_nuclObj m nu)); try exact NS; destruct e as [[|y [|]]|]; exact NS. }
  rewrite (grow_put (sm_grow m1) (viewOf m1) s1 NS1), (oxid_put (sm_oxid m1) (viewOf m1) s1 NS1).
  destruct (growRate (sm_grow m1) (viewOf m1) (put l' s1)) as [g| |]; cbn [bind]; try reflexivity.
  destruct (oxidRate (sm_oxid m1) (viewOf m1) (put l' s1)); reflexivity.
Qed.
Lemma mono_put st eig m s : nltb (nZ 0) a = false -> nltb (nZ 0) a' = false -> sm_psd m = P_MONO -> ta_mech (sm_tar m) = T_NONE ->
  sameBut l' (setSourceTerms st eig m (put l s)) (setSourceTerms st eig m (put l' s)).
Proof.
  intros Ha Ha' Hp Ht. unfold setSourceTerms. rewrite Hp. unfold setSourceTermsMONO. cbn [put with_sootVar sootVar l l' vget nth_error bind].
  unfold monoSetWA. rewrite Ha, Ha'. cbn [bind]. rewrite Ht. fold l l'. fold (put l s) (put l' s). unfold monoTermsOf. rewrite (chem_put m s) by congruence.
  destruct (chemRates (collSum (sm_coag m)) m (put l s)) as [[[[[j g] o] m1] s1]| |]; cbn [bind sameBut]; try reflexivity.
  change (absc (put l' s1)) with (absc s1). change (wts (put l' s1)) with (wts s1). change (cMin (put l' s1)) with (cMin s1).
  destruct (vget (absc s1) 0) as [x0| |]; cbn [bind sameBut]; try reflexivity. unfold monoArea. rewrite Ha, Ha'.
  assert (K : forall c x y, coagRate c (put l' s1) x y = coagRate c s1 x y) by (intros; unfold coagRate; destruct (co_class c); reflexivity).
  rewrite !K. destruct (isPAH m1); [destruct (vget (wts s1) 0) as [w0| |]|]; cbn [bind sameBut]; try reflexivity; destruct (coagOn m1);
    try (destruct (vget (wts s1) 0) as [w1| |]); cbn [bind sameBut mt_N0 mt_N1 mt_Cnd1 mt_G1 mt_X1 mt_C0]; auto.
Qed.
(** the weights and abscissas *)
Lemma zset (w : list num) : (1 <= length w)%nat -> vset (map (fun _ => nZ 0) w) 0 (nZ 0) = Ok (map (fun _ : num => nZ 0) w).
Proof. destruct w as [|x w]; [cbn; lia|]. reflexivity. Qed.
Context (NL : nanLaws N).
Lemma down_nan eig n : notNumber a -> (1 <= n)%nat -> exists y, downselect eig l n = Ok ([a], [y]) /\ notNumber y.
Proof.
  intros HN. induction n as [|[|n] IH]; [lia| |]; intros _.
  - exists (b / a). split; [reflexivity|]. now apply (nl_div N NL).
  - change (downselect eig l (S (S n))) with (let '(w, a0) := wheeler eig l (S (S n)) in if badValues w a0 then downselect eig l (S n) else Ok (w, a0)).
    assert (B : forall x1 x2, wheeler eig l (S (S n)) = (x1, x2) -> badValues x1 x2 = true).
    { intros x1 x2. unfold wheeler. destruct (wheelerAB l (S (S n))) as (ca & cb). destruct (eig (S (S n)) ca (map (fun x => - nsqrt (nabs x)) cb)) as (ev & vc).
      intros E. apply (f_equal fst) in E. cbn [fst] in E. subst x1. unfold badValues. apply orb_true_intro. left. cbn [seq map existsb]. apply orb_true_intro. left.
      unfold badValue. apply orb_true_intro. left. cbn [l nth]. rewrite (nl_fin N NL); [reflexivity|]. now apply (nl_mul N NL). }
    destruct (wheeler eig l (S (S n))) as (x1 & x2). rewrite (B x1 x2 eq_refl). apply IH. lia.
Qed.
Lemma wts_nan eig (w x : list num) : notNumber a -> (1 <= length w)%nat -> (1 <= length x)%nat -> getWtsAbs eig l w x = Ok (map (fun _ => nZ 0) w, map (fun _ => nZ 0) x).
Proof.
  intros HN Lw Lx. unfold getWtsAbs. cbn [l vget nth_error bind]. rewrite (nl_leb N NL) by auto.
  destruct (down_nan eig (Nat.div (length l) 2) HN) as (y & E & Hy).
  { unfold l. cbn [length]. change (S (S (length r))) with (2 + length r)%nat. replace (2 + length r)%nat with (length r + 1 * 2)%nat by lia. rewrite Nat.div_add by lia. lia. }
  fold l. rewrite E. cbn [bind]. unfold assignNonneg. cbn [length seq foldM nth].
  rewrite !(nl_leb N NL) by auto. rewrite !zset by auto. reflexivity.
Qed.
Lemma wts_none eig (w x : list num) : nleb a' (nZ 0) = true -> getWtsAbs eig l' w x = Ok (map (fun _ => nZ 0) w, map (fun _ => nZ 0) x).
Proof. intros H. unfold getWtsAbs. cbn [l' vget nth_error bind]. now rewrite H. Qed.
Lemma qmom_put st eig m s : sm_psd m = P_QMOM -> getWtsAbs eig l (wts s) (absc s) = getWtsAbs eig l' (wts s) (absc s) ->
  sameBut l' (setSourceTerms st eig m (put l s)) (setSourceTerms st eig m (put l' s)).
Proof.
  intros Hp HW. unfold setSourceTerms. rewrite Hp. unfold setSourceTermsQMOM. cbn [put with_sootVar sootVar wts absc]. rewrite HW.
  destruct (getWtsAbs eig l' (wts s) (absc s)) as [[w x]| |]; cbn [bind sameBut]; try reflexivity.
  change (with_wa (put l s) w x) with (put l (with_wa s w x)). change (with_wa (put l' s) w x) with (put l' (with_wa s w x)).
  rewrite (chem_put m (with_wa s w x)) by congruence.
  destruct (chemRates (collSum (sm_coag m)) m (put l (with_wa s w x))) as [[[[[j g] o] m1] s1]| |]; cbn [bind sameBut]; try reflexivity.
  change (qmomCnd m1 (put l' s1)) with (qmomCnd m1 s1). change (qmomSurf (growOn m1) g (put l' s1)) with (qmomSurf (growOn m1) g s1).
  change (qmomSurf (oxidOn m1) (- o) (put l' s1)) with (qmomSurf (oxidOn m1) (- o) s1).
  change (fun k => if coagOn m1 then qmomCoag (sm_coag m1) (put l' s1) k else Ok (nZ 0)) with (fun k => if coagOn m1 then qmomCoag (sm_coag m1) s1 k else Ok (nZ 0)).
  destruct (mapM (qmomCnd m1 s1) (seq 0 (sm_nsoot m1))); cbn [bind sameBut]; try reflexivity.
  destruct (mapM (qmomSurf (growOn m1) g s1) (seq 0 (sm_nsoot m1))); cbn [bind sameBut]; try reflexivity.
  destruct (mapM (qmomSurf (oxidOn m1) (- o) s1) (seq 0 (sm_nsoot m1))); cbn [bind sameBut]; try reflexivity.
  destruct (mapM (fun k => if coagOn m1 then qmomCoag (sm_coag m1) s1 k else Ok (nZ 0)) (seq 0 (sm_nsoot m1))); cbn [bind sameBut]; auto.
Qed.
End Empty.
End Same.

(** ** NaN in, NaN out, in exact arithmetic *)
Local Open Scope R_scope.
Lemma addNl x : xadd NaN x = NaN. Proof. now destruct x. Qed.
Lemma addNr x : xadd x NaN = NaN. Proof. now destruct x. Qed.
Lemma subNl x : xsub NaN x = NaN. Proof. now destruct x. Qed.
Lemma subNr x : xsub x NaN = NaN. Proof. now destruct x. Qed.
Lemma mulNl x : xmul NaN x = NaN. Proof. now destruct x. Qed.
Lemma mulNr x : xmul x NaN = NaN. Proof. now destruct x. Qed.
Lemma divNl x : xdiv NaN x = NaN. Proof. now destruct x. Qed.
Lemma divNr x : xdiv x NaN = NaN. Proof. now destruct x. Qed.
Lemma powN b : b <> 0 -> xpow NaN (Fin b) = NaN. Proof. intros H. unfold xpow. destruct (Req_EM_T b 0); [contradiction|reflexivity]. Qed.
Ltac xn := repeat first [rewrite addNl|rewrite addNr|rewrite subNl|rewrite subNr|rewrite mulNl|rewrite mulNr|rewrite divNl|rewrite divNr].
Ltac ops := change (@nadd XR) with xadd; change (@nsub XR) with xsub; change (@nmul XR) with xmul; change (@ndiv XR) with xdiv; change (@nopp XR) with xopp; change (@npow XR) with xpow; change (@nsqrt XR) with xsqrt; change (@nleb XR) with xleb; change (@nltb XR) with xltb.
Lemma third : @onethird XR = Fin (1 / 3). Proof. unfold onethird. change (xdiv (Fin 1) (Fin 3) = Fin (1 / 3)). rewrite xdiv_fin by lra. reflexivity. Qed.
Lemma twoth : @twothird XR = Fin (2 / 3). Proof. unfold twothird. change (xdiv (Fin 2) (Fin 3) = Fin (2 / 3)). rewrite xdiv_fin by lra. reflexivity. Qed.
(** kernels *)
Lemma kernel_N (c : coagObj (N:=XR)) s : co_class c <> C_NONE -> co_class c <> C_size -> coagRate (N:=XR) c s NaN NaN = NaN.
Proof.
  intros H1 H2. unfold coagRate. destruct (co_class c); try congruence.
  - unfold kernelFM. change (tooSmall (N:=XR) NaN NaN) with false. cbv zeta iota. ops. rewrite third, powN by lra. xn. reflexivity.
  - unfold kernelCONT. change (tooSmall (N:=XR) NaN NaN) with false. cbv zeta iota. ops. rewrite third. xn. rewrite ?powN by lra. xn. reflexivity.
  - unfold kernelHM. change (tooSmall (N:=XR) NaN NaN) with false. cbv zeta iota. ops. rewrite third. xn. rewrite ?powN by lra. xn. reflexivity.
  - unfold kernelFUCHS. change (tooSmall (N:=XR) NaN NaN) with false. cbv zeta iota. ops. rewrite third. xn. rewrite ?powN by lra. xn. reflexivity.
Qed.

Lemma mono_nan st eig (m : model (N:=XR)) s a : sm_psd m = P_MONO -> ta_mech (sm_tar m) = T_NONE -> 0 < a ->
  post (setSourceTerms st eig m (put [Fin a; NaN] s)) (fun x => let '(_, m', _) := x in
    (coagOn m = true -> co_class (sm_coag m) <> C_NONE -> co_class (sm_coag m) <> C_size -> nth_error (soots m') 0 = Some NaN) /\
    (growOn m = true \/ oxidOn m = true -> nth_error (soots m') 1 = Some NaN)).
Proof.
  intros Hp Ht Pa. unfold setSourceTerms. rewrite Hp. unfold setSourceTermsMONO. cbn [put with_sootVar sootVar vget nth_error bind].
  assert (PA : xltb (Fin 0) (Fin a) = true) by (cbn [xltb]; destruct (Rlt_dec 0 a); [reflexivity|lra]).
  unfold monoSetWA. change (@nltb XR (nZ 0) (Fin a)) with (xltb (Fin 0) (Fin a)). rewrite PA. unfold put. cbn [wts absc with_sootVar].
  change (@ndiv XR NaN (Fin a)) with NaN.
  destruct (vset (wts s) 0 (Fin a : @num XR)) as [w| |] eqn:EW; cbn [bind post]; auto. destruct (vset (absc s) 0 (NaN : @num XR)) as [x| |] eqn:EA; cbn [bind post]; auto.
  assert (EX : vget x 0 = Ok (NaN : @num XR)).
  { unfold vset in EA. destruct (Nat.ltb 0 (length (absc s))) eqn:L; [|discriminate EA]. apply (f_equal (fun r => match r with Ok y => y | _ => x end)) in EA. subst x.
    destruct (absc s) as [|y q]; [discriminate L|]. reflexivity. }
  rewrite Ht. apply post_bind with (R := fun z => (coagOn m = true -> co_class (sm_coag m) <> C_NONE -> co_class (sm_coag m) <> C_size -> nth_error (soots (fst z)) 0 = Some NaN) /\
    (growOn m = true \/ oxidOn m = true -> nth_error (soots (fst z)) 1 = Some NaN)); [|intros (m' & s') H; cbn [post]; exact H].
  unfold monoTermsOf. eapply post_bind with (R := fun z : monoTerms (N:=XR) * model * state => let '(t, _, _) := z in
    (coagOn m = true -> co_class (sm_coag m) <> C_NONE -> co_class (sm_coag m) <> C_size -> mt_C0 (N:=XR) t = NaN) /\ (growOn m = true -> mt_G1 (N:=XR) t = NaN) /\ (oxidOn m = true -> mt_X1 (N:=XR) t = NaN)).
  - eapply post_bind; [apply chem_post|]. intros ((((j & g) & o) & m1) & s1) (ES & _ & _ & _ & _ & _ & EM).
    assert (EX1 : vget (absc s1) 0 = Ok (NaN : @num XR)) by (rewrite ES; exact EX). rewrite EX1. cbn [bind].
    apply post_any. intros cnd. assert (AN : monoArea (N:=XR) (Fin a) NaN = NaN).
    { unfold monoArea. change (@nltb XR (nZ 0) (Fin a)) with (xltb (Fin 0) (Fin a)). rewrite PA. ops. xn. rewrite twoth, powN by lra. xn. reflexivity. }
    rewrite AN.
    assert (GM : growOn m1 = growOn m) by (rewrite EM; reflexivity). assert (OM : oxidOn m1 = oxidOn m) by (rewrite EM; reflexivity). assert (CM : coagOn m1 = coagOn m) by (rewrite EM; reflexivity).
    assert (SC : sm_coag m1 = sm_coag m) by (rewrite EM; reflexivity). rewrite GM, OM, CM, SC.
    apply post_bind with (R := fun z => coagOn m = true -> co_class (sm_coag m) <> C_NONE -> co_class (sm_coag m) <> C_size -> z = NaN).
    + destruct (coagOn m); [|cbn [post]; discriminate]. apply post_any. intros w0. cbn [post]. intros _ H1 H2. rewrite kernel_N by auto. ops. xn. reflexivity.
    + intros c0 HC. cbn [post mt_C0 mt_G1 mt_X1]. split; [exact HC|]. split; intros ->; ops; xn; reflexivity.
  - intros ((t & m1) & s1) (A & B & C). cbn [post fst]. unfold soots, finish. cbn [sm_sources with_sources sootSources nth_error]. split.
    + intros H1 H2 H3. rewrite (A H1 H2 H3). ops. xn. reflexivity.
    + intros [H|H]; [rewrite (B H)|rewrite (C H)]; ops; xn; reflexivity.
Qed.

(** LOGN *)
Section LognNan.
Context (M0 M1 M2 : xr) (P0 : posOrNaN M0) (P1 : posOrNaN M1) (P2 : posOrNaN M2) (one : M0 = NaN \/ M1 = NaN \/ M2 = NaN).
Lemma pn_le x : posOrNaN x -> xleb x (Fin 0) = false.
Proof. intros [->|(r & H & ->)]; [reflexivity|]. cbn [xleb]. destruct (Rle_dec r 0); [lra|reflexivity]. Qed.
Lemma pn_pow e0 e1 e2 : e0 <> 0 -> e1 <> 0 -> e2 <> 0 -> xmul (xmul (xpow M0 (Fin e0)) (xpow M1 (Fin e1))) (xpow M2 (Fin e2)) = NaN.
Proof. intros H0 H1 H2. destruct one as [->|[->| ->]]; rewrite powN by auto; xn; reflexivity. Qed.
Lemma mr_nan (z : Z) : let r := IZR z / 6 in 1 + 5 / 10 * r * (r - 3) <> 0 -> r * (2 - r) <> 0 -> 5 / 10 * r * (r - 1) <> 0 -> lognM (N:=XR) M0 M1 M2 z = NaN.
Proof.
  intros r H0 H1 H2. unfold lognM. assert (ER : @ndiv XR (nZ z) (nZ 6) = Fin r) by (change (xdiv (Fin (IZR z)) (Fin 6) = Fin r); apply xdiv_fin; lra).
  rewrite ER. unfold lognMr. cbv zeta. ops. change (@nZ XR 0) with (Fin 0). 
  change (@nZ XR 1) with (Fin 1). change (@nZ XR 2) with (Fin 2). change (@nZ XR 3) with (Fin 3). change (@nlit XR 5 (-1)) with (Fin (5 / 10)). cbn [xadd xsub xmul].
  rewrite ?(pn_le _ P0), (pn_le _ P1), (pn_le _ P2). cbn [andb orb]. apply pn_pow; auto.
Qed.
Lemma mr_4 : lognM (N:=XR) M0 M1 M2 4 = NaN. Proof. apply mr_nan; lra. Qed.
Lemma mr_1 : lognM (N:=XR) M0 M1 M2 1 = NaN. Proof. apply mr_nan; lra. Qed.
Lemma mr_2 : lognM (N:=XR) M0 M1 M2 2 = NaN. Proof. apply mr_nan; lra. Qed.
Lemma c0fm_nan K : lognC0fm (N:=XR) K M0 M1 M2 = NaN. Proof. unfold lognC0fm. cbv zeta. rewrite mr_1. ops. xn. reflexivity. Qed.
Lemma c0c_nan K K' : lognC0c (N:=XR) K K' M0 M1 M2 = NaN. Proof. unfold lognC0c. cbv zeta. rewrite mr_2. ops. xn. reflexivity. Qed.
Lemma logn_nan st eig (m : model (N:=XR)) s : sm_psd m = P_LOGN ->
  post (setSourceTerms st eig m (put [M0; M1; M2] s)) (fun x => let '(_, m', _) := x in
    (co_mech (sm_coag m) = C_FM \/ co_mech (sm_coag m) = C_CONTINUUM -> nth_error (soots m') 0 = Some NaN) /\
    (growOn m = true \/ oxidOn m = true -> nth_error (soots m') 1 = Some NaN)).
Proof.
  intros Hp. unfold setSourceTerms. rewrite Hp. unfold setSourceTermsLOGN. cbn [put with_sootVar sootVar vget nth_error bind].
  apply post_bind with (R := fun z => (co_mech (sm_coag m) = C_FM \/ co_mech (sm_coag m) = C_CONTINUUM -> nth_error (soots (fst z)) 0 = Some NaN) /\
    (growOn m = true \/ oxidOn m = true -> nth_error (soots (fst z)) 1 = Some NaN)); [|intros (m' & s') H; cbn [post]; exact H].
  eapply post_bind; [apply run_post|]. intros ((j & m1) & s1) (ES & _ & _ & _ & _ & _ & EM). cbv zeta.
  assert (GM : growOn m1 = growOn m) by (rewrite EM; reflexivity). assert (OM : oxidOn m1 = oxidOn m) by (rewrite EM; reflexivity).
  assert (SC : sm_coag m1 = sm_coag m) by (rewrite EM; reflexivity). rewrite GM, OM, SC.
  apply post_bind with (R := fun z => growOn m = true -> fst z = NaN).
  { destruct (growOn m); [|cbn [post]; discriminate]. apply post_any. intros k. cbn [post fst]. intros _. unfold lognSurf1. rewrite mr_4. ops. xn. reflexivity. }
  intros (G1 & G2) HG. cbn [fst] in HG.
  apply post_bind with (R := fun z => oxidOn m = true -> fst z = NaN).
  { destruct (oxidOn m); [|cbn [post]; discriminate]. apply post_any. intros k. cbn [post fst]. intros _. unfold lognSurf1. rewrite mr_4. ops. xn. reflexivity. }
  intros (X1 & X2) HX. cbn [fst] in HX.
  destruct (lognCoag (sm_coag m) s1 M0 M1 M2) as (C0 & C2) eqn:EC. cbn [post fst]. unfold soots, finish. cbn [sm_sources with_sources sootSources nth_error]. split.
  - intros HC. assert (EN : C0 = NaN).
    { apply (f_equal fst) in EC. cbn [fst] in EC. rewrite <- EC. unfold lognCoag. destruct HC as [->| ->]; cbv zeta; cbn [fst]; [apply c0fm_nan|apply c0c_nan]. }
    rewrite EN. ops. xn. reflexivity.
  - intros [H|H]; [rewrite (HG H)|rewrite (HX H)]; ops; xn; reflexivity.
Qed.
End LognNan.

(** LOGN, harmonic mean, coagulation only *)
Lemma logn_hidden st eig (m : model (N:=XR)) s M0 M1 M2 : sm_psd m = P_LOGN -> posOrNaN M0 -> posOrNaN M1 -> posOrNaN M2 -> M0 = NaN \/ M1 = NaN \/ M2 = NaN ->
  nuclOn m = false -> growOn m = false -> oxidOn m = false -> isPAH m = false -> co_mech (sm_coag m) = C_HM ->
  post (setSourceTerms st eig m (put [M0; M1; M2] s)) (fun x => let '(_, m', _) := x in soots m' = [Fin 0; Fin 0; Fin 0]).
Proof.
  intros Hp P0 P1 P2 ON E1 E2 E3 E4 EC. unfold setSourceTerms. rewrite Hp. unfold setSourceTermsLOGN. cbn [put with_sootVar sootVar vget nth_error bind].
  apply post_bind with (R := fun z => soots (fst z) = [Fin 0; Fin 0; Fin 0]); [|intros (m' & s') H; cbn [post]; exact H].
  eapply post_bind; [apply run_post|]. intros ((j & m1) & s1) (ES & _ & _ & EK & _ & _ & EM). cbv zeta.
  assert (HH : nuclOn m1 = nuclOn m /\ growOn m1 = growOn m /\ oxidOn m1 = oxidOn m /\ isPAH m1 = isPAH m /\ sm_coag m1 = sm_coag m).
  { unfold nuclOn, isPAH. rewrite EK. rewrite EM. repeat split. }
  destruct HH as (-> & -> & -> & -> & ->). rewrite E1, E2, E3, E4. cbn [bind].
  assert (E : lognCoag (N:=XR) (sm_coag m) s1 M0 M1 M2 = (Fin 0, Fin 0)).
  { unfold lognCoag. rewrite EC. cbv zeta. rewrite (c0fm_nan M0 M1 M2 P0 P1 P2 ON), (c0c_nan M0 M1 M2 P0 P1 P2 ON).
    assert (A : lognC2fm (N:=XR) (getKfm (sm_coag m) s1) M0 M1 M2 = NaN).
    { unfold lognC2fm. cbv zeta. rewrite (mr_nan M0 M1 M2 P0 P1 P2 ON 7) by lra. ops. xn. reflexivity. }
    assert (B : lognC2c (N:=XR) (getKc s1) (getKcp s1) M0 M1 M2 = NaN).
    { unfold lognC2c. cbv zeta. rewrite (mr_4 M0 M1 M2 P0 P1 P2 ON). ops. xn. reflexivity. }
    rewrite A, B. reflexivity. }
  rewrite E. cbn [post fst]. unfold soots, finish. cbn [sm_sources with_sources sootSources].
  assert (ZZ : @nadd XR (@nsub XR (@nadd XR (@nadd XR (nZ 0) (nZ 0)) (nZ 0)) (nZ 0)) (Fin 0) = Fin 0) by (change (Fin (0 + 0 + 0 - 0 + 0) = Fin 0); f_equal; lra).
  assert (ZY : @nadd XR (@nadd XR (@nadd XR (@nadd XR (nZ 0) (nZ 0)) (nZ 0)) (nZ 0)) (Fin 0) = Fin 0) by (change (Fin (0 + 0 + 0 + 0 + 0) = Fin 0); f_equal; lra).
  rewrite ZZ. change (@nZ XR 0) with (Fin 0) in *. rewrite ZY. reflexivity.
Qed.

(** QMOM with four moments, a second or third moment that is not a number *)
Lemma down2 eig (l : list (@num XR)) : noticesNaN eig -> In NaN (fst (wheelerAB (N:=XR) l 2)) -> downselect eig l 2 = downselect eig l 1.
Proof.
  intros HN IN. change (downselect eig l 2) with (let '(w, a0) := wheeler eig l 2 in if badValues w a0 then downselect eig l 1 else Ok (w, a0)).
  assert (B : forall x1 x2, wheeler eig l 2 = (x1, x2) -> badValues x1 x2 = true); [|destruct (wheeler eig l 2) as (x1 & x2); now rewrite (B x1 x2 eq_refl)].
  intros x1 x2. unfold wheeler. destruct (wheelerAB (N:=XR) l 2) as (ca & cb). cbn [fst] in IN.
  destruct (HN 2%nat ca (map (fun x => @nopp XR (@nsqrt XR (@nabs XR x))) cb) ltac:(lia) IN) as (i & Hi & Ei).
  match goal with |- context [eig 2%nat ca ?q] => change q with (map (fun x => @nopp XR (@nsqrt XR (@nabs XR x))) cb) end.
  destruct (eig 2%nat ca (map (fun x => @nopp XR (@nsqrt XR (@nabs XR x))) cb)) as [ev vc]. cbn [fst] in Ei. intros E. apply (f_equal snd) in E. cbn [snd] in E. subst x2.
  unfold badValues. apply orb_true_intro. right. apply existsb_exists. exists (ev i). split; [apply in_map; apply in_seq; lia|]. rewrite Ei. reflexivity.
Qed.
Lemma ab_nan a b y z : y = NaN \/ z = NaN -> In NaN (fst (wheelerAB (N:=XR) [Fin a; Fin b; y; z] 2)).
Proof.
  intros H. unfold wheelerAB. cbv zeta. cbn [fst]. right. cbn [Nat.sub wheelerRec map fst nth]. left. ops.
  destruct H as [->| ->]; xn; reflexivity.
Qed.
Lemma ab_equal a b : 0 < a -> In NaN (fst (wheelerAB (N:=XR) [Fin a; Fin b; Fin (b ^ 2 / a); Fin (b ^ 3 / a ^ 2)] 2)).
Proof.
  intros Pa. unfold wheelerAB. cbv zeta. cbn [fst]. right. cbn [Nat.sub wheelerRec map fst nth]. left. ops. change (@nZ XR 0) with (Fin 0).
  rewrite !(xdiv_fin b a) by lra. cbn [xmul xsub].
  assert (Z1 : b ^ 2 / a - b / a * b - 0 * 0 = 0) by (field; lra).
  assert (Z2 : b ^ 3 / a ^ 2 - b / a * (b ^ 2 / a) - 0 * 0 = 0) by (field; lra).
  rewrite Z1, Z2. unfold xdiv at 2. destruct (Req_EM_T 0 0); [|lra]. unfold signed. destruct (Rlt_dec 0 0); [lra|]. xn. reflexivity.
Qed.
Lemma qmom_higher st eig (m : model (N:=XR)) s a b y z : sm_psd m = P_QMOM -> noticesNaN eig -> 0 < a -> y = NaN \/ z = NaN ->
  let l' := [Fin a; Fin b; Fin (b ^ 2 / a); Fin (b ^ 3 / a ^ 2)] in
  sameBut l' (setSourceTerms st eig m (put [Fin a; Fin b; y; z] s)) (setSourceTerms st eig m (put l' s)).
Proof.
  intros Hp HN Pa H l'. refine (qmom_put (N:=XR) (Fin a) (Fin b) (Fin a) (Fin b) [y; z] [Fin (b ^ 2 / a); Fin (b ^ 3 / a ^ 2)] (or_intror (conj eq_refl eq_refl)) st eig m s Hp _).
  unfold getWtsAbs. cbn [vget nth_error bind]. cbv zeta.
  repeat match goal with |- context [downselect ?e ?l (Nat.div ?n 2)] => change (downselect e l (Nat.div n 2)) with (downselect (N:=XR) e l 2) end.
  pose proof (down2 eig _ HN (ab_nan a b y z H)) as E1. pose proof (down2 eig _ HN (ab_equal a b Pa)) as E2.
  match goal with |- (if ?c then _ else bind ?u _) = (if _ then _ else bind ?v _) => replace u with (downselect (N:=XR) eig [Fin a; Fin b; y; z] 1) by (symmetry; exact E1); replace v with (downselect (N:=XR) eig [Fin a; Fin b; Fin (b ^ 2 / a); Fin (b ^ 3 / a ^ 2)] 1) by (symmetry; exact E2) end.
  reflexivity.
Qed.

(** SECT *)
Definition bad (j : nat) (v : list (@num XR)) : Prop := (j < length v)%nat /\ nth j v (Fin 0) = NaN.
Lemma upd_len (v : list (@num XR)) k x : length (upd v k x) = length v.
Proof. revert k. induction v as [|y v IH]; intros [|k]; cbn [upd length]; auto. Qed.
Lemma upd_nth (v : list (@num XR)) k x j : (j < length v)%nat -> nth j (upd v k x) (Fin 0) = if Nat.eqb j k then x else nth j v (Fin 0).
Proof.
  revert k j. induction v as [|y v IH]; intros k j; [cbn; lia|]. destruct k, j; cbn [upd length nth Nat.eqb]; intros H; auto; try lia. apply IH. lia.
Qed.
Lemma add_bad j v k x : bad j v -> bad j (addAt (N:=XR) v k x).
Proof.
  intros (L & E). split; unfold addAt; [now rewrite upd_len|]. rewrite upd_nth by auto. destruct (Nat.eqb j k) eqn:Q; [|exact E]. apply Nat.eqb_eq in Q. subst k.
  unfold at_. change (@nZ XR 0) with (Fin 0). rewrite E. ops. xn. reflexivity.
Qed.
Lemma sub_bad j v k x : bad j v -> bad j (subAt (N:=XR) v k x).
Proof.
  intros (L & E). split; unfold subAt; [now rewrite upd_len|]. rewrite upd_nth by auto. destruct (Nat.eqb j k) eqn:Q; [|exact E]. apply Nat.eqb_eq in Q. subst k.
  unfold at_. change (@nZ XR 0) with (Fin 0). rewrite E. ops. xn. reflexivity.
Qed.
Lemma gain_bad j ns mb t i i' k v : bad j v -> bad j (sectGain (N:=XR) ns mb t i i' k v).
Proof. intros H. unfold sectGain. cbv zeta. destruct (Nat.eqb _ _); auto using add_bad. Qed.
Lemma gain_len ns mb t i i' k (v : list (@num XR)) : length (sectGain (N:=XR) ns mb t i i' k v) = length v.
Proof. unfold sectGain, addAt. cbv zeta. destruct (Nat.eqb _ _); now rewrite ?upd_len. Qed.
Lemma pair_len c s ns mb n f (v : list (@num XR)) i j : post (sectPair (N:=XR) c s ns mb n f v i j) (fun v' => length v' = length v).
Proof. unfold sectPair. cbv zeta. destruct (ntrunc _); cbn [post]; auto. rewrite gain_len. unfold subAt. destruct (Nat.ltb i j); now rewrite ?upd_len. Qed.
Lemma pair_bad q c s ns mb n f v i j : bad q v -> post (sectPair (N:=XR) c s ns mb n f v i j) (bad q).
Proof. intros H. unfold sectPair. cbv zeta. destruct (ntrunc _); cbn [post]; auto. apply gain_bad. destruct (Nat.ltb i j); auto using sub_bad. Qed.
Lemma pair_diag q c s ns mb n f v : (q < length v)%nat -> n q = NaN -> post (sectPair (N:=XR) c s ns mb n f v q q) (bad q).
Proof.
  intros L E. unfold sectPair. cbv zeta. destruct (ntrunc _); cbn [post]; auto. apply gain_bad. rewrite Nat.ltb_irrefl. split; unfold subAt; [now rewrite upd_len|].
  rewrite upd_nth, Nat.eqb_refl by auto. rewrite E. ops. xn. reflexivity.
Qed.
Lemma foldM_inv {A B} (P : A -> Prop) (h : A -> B -> res A) l : (forall a b, In b l -> P a -> post (h a b) P) -> forall a, P a -> post (foldM h l a) P.
Proof.
  induction l as [|b l IH]; intros H a Pa; [exact Pa|]. cbn [foldM]. eapply post_bind; [apply H; [now left|exact Pa]|]. intros a' Pa'. apply IH; auto. intros; apply H; auto. now right.
Qed.
Lemma foldM_hit {A B} (P Q : A -> Prop) (h : A -> B -> res A) l q : In q l -> (forall a b, P a -> post (h a b) P) -> (forall a b, Q a -> post (h a b) Q) -> (forall a, P a -> post (h a q) Q) ->
  forall a, P a -> post (foldM h l a) Q.
Proof.
  intros I HP HQ HH. induction l as [|b l IH]; [contradiction|]. intros a Pa. cbn [foldM]. destruct I as [->|I].
  - eapply post_bind; [now apply HH|]. intros a' Qa. apply foldM_inv; auto.
  - eapply post_bind; [now apply HP|]. intros a' Pa'. auto.
Qed.
Lemma coag_bad q c s ns mb n f : (q < ns)%nat -> n q = NaN -> post (sectCoag (N:=XR) c s ns mb n f) (bad q).
Proof.
  intros L E. unfold sectCoag. apply foldM_hit with (P := fun v => length v = ns) (q := q).
  - apply in_seq. lia.
  - intros v i Lv. apply foldM_inv; [|exact Lv]. intros v' j _ Lv'. rewrite <- Lv'. rewrite Lv' at 1. apply pair_len.
  - intros v i Bv. apply foldM_inv; [|exact Bv]. intros v' j _ Bv'. now apply pair_bad.
  - intros v Lv. apply foldM_hit with (P := fun v => length v = ns) (q := q); auto.
    + apply in_seq. lia.
    + intros v' j Lv'. rewrite <- Lv'. rewrite Lv' at 1. apply pair_len.
    + intros v' j Bv'. now apply pair_bad.
    + intros v' Lv'. apply pair_diag; [lia|exact E].
  - unfold zeros. apply repeat_length.
Qed.
Lemma mapM_nth {A B} (h : A -> res B) l v : mapM h l = Ok v -> forall j a, nth_error l j = Some a -> exists y, h a = Ok y /\ nth_error v j = Some y.
Proof.
  revert v. induction l as [|b l IH]; intros v H j a E; [destruct j; discriminate E|]. cbn [mapM] in H. apply bind_ok in H. destruct H as (y & Hy & H). apply bind_ok in H. destruct H as (ys & Hys & H).
  apply (f_equal (fun r => match r with Ok x => x | _ => v end)) in H. subst v. destruct j as [|j]; cbn [nth_error] in *.
  - exists y. split; [|reflexivity]. now apply (f_equal (fun o => match o with Some x => h x | None => h b end)) in E as <-.
  - exact (IH ys Hys j a E).
Qed.
Lemma area_nan mb n q : n q = NaN -> sectArea (N:=XR) mb n q = NaN.
Proof. intros E. unfold sectArea. rewrite E. ops. xn. reflexivity. Qed.
Lemma up_nan ns (out : nat -> @num XR) last q : out q = NaN -> (q = ns - 1 -> last = NaN)%nat -> (q < ns)%nat -> sectUp (N:=XR) ns out last q = NaN.
Proof.
  intros E L Hq. unfold sectUp. destruct (Nat.eqb_spec q 0) as [->|]; [rewrite E; reflexivity|]. destruct (Nat.ltb_spec q (ns - 1)); [rewrite E|rewrite L by lia]; ops; xn; reflexivity.
Qed.
Lemma down_nan' ns (out : nat -> @num XR) first q : out q = NaN -> (q = 0 -> first = NaN)%nat -> sectDown (N:=XR) ns out first q = NaN.
Proof.
  intros E L. unfold sectDown. destruct (Nat.eqb_spec q (ns - 1)); [rewrite E; reflexivity|]. destruct (Nat.eqb_spec q 0); [rewrite L by auto|rewrite E]; ops; xn; reflexivity.
Qed.
Lemma sect_nan st eig (m : model (N:=XR)) s q : sm_psd m = P_SECT -> (q < sm_nsoot m)%nat -> nth_error (sootVar s) q = Some NaN -> growOn m = true \/ oxidOn m = true \/ coagOn m = true ->
  post (setSourceTerms st eig m s) (fun x => let '(_, m', _) := x in nth_error (soots m') q = Some NaN).
Proof.
  intros Hp Hq HN ON. unfold setSourceTerms. rewrite Hp. unfold setSourceTermsSECT.
  eapply post_bind; [apply chem_post|]. intros ((((j & g) & o) & m1) & s1) (ES & _ & _ & _ & _ & _ & EM). cbv zeta.
  assert (HH : growOn m1 = growOn m /\ oxidOn m1 = oxidOn m /\ coagOn m1 = coagOn m /\ sm_nsoot m1 = sm_nsoot m) by (rewrite EM; repeat split). destruct HH as (-> & -> & -> & ->).
  destruct (readSoot (sm_nsoot m) s1) as [nv| |] eqn:ER; cbn [bind post]; auto.
  assert (EV : sootVar s1 = sootVar s) by (rewrite ES; reflexivity).
  assert (EN : at_ (N:=XR) nv q = NaN).
  { unfold readSoot in ER. destruct (mapM_nth _ _ _ ER q q) as (y & A & B).
    - rewrite (nth_error_nth' _ 0%nat) by (rewrite seq_length; exact Hq). now rewrite seq_nth by exact Hq.
    - rewrite EV in A. unfold vget in A. rewrite HN in A. unfold at_. apply (f_equal (fun r => match r with Ok x => x | _ => y end)) in A. subst y.
      now apply nth_error_nth. }
  destruct (match sm_priv m1 with PrivSect F b => (F, b) | _ => (@nZ XR 0, []) end) as (F & beta).
  apply post_bind with (R := fun z => coagOn m = true -> at_ (N:=XR) (snd z) q = NaN).
  { destruct (coagOn m); [|cbn [post]; discriminate]. eapply post_bind; [apply (coag_bad q); [exact Hq|exact EN]|]. intros v (Lv & Bv). cbn [post snd]. auto. }
  intros (g' & coa) HC. cbn [post snd] in *. unfold soots, finish. cbn [sm_sources with_sources sootSources].
  unfold combine5. rewrite nth_error_map, (nth_error_nth' _ 0%nat) by (rewrite seq_length; exact Hq). rewrite seq_nth by exact Hq. cbn [option_map Nat.add]. f_equal.
  destruct ON as [->|[->|H]]; [| |rewrite (HC H); ops; xn; reflexivity].
  - rewrite up_nan; [ops; xn; reflexivity| | |exact Hq].
    + rewrite area_nan by exact EN. ops. xn. reflexivity.
    + intros <-. rewrite area_nan by exact EN. ops. xn. reflexivity.
  - rewrite down_nan'; [ops; xn; reflexivity| |].
    + rewrite area_nan by exact EN. ops. xn. reflexivity.
    + intros ->. rewrite area_nan by exact EN. ops. xn. reflexivity.
Qed.
