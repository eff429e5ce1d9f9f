(** The small example programs, exact arithmetic and IEEE arithmetic (C85). *)
From Coq Require Import ZArith List Bool Reals Lra Lia.
From Coq.Floats Require Import SpecFloat.
From Verif Require Import Num Defs State Coag Nucl Growth Oxid Tar SootModel Mono Qmom Calls CInterface Simple XR F64 SpecState SpecChem SpecCoag SpecValid SpecRates SpecGas SpecPah SpecPsd
  XRLemmas NumLaws StateProofs ValidProofs RateProofs PsdProofs PahProofs MonoTar MonoMain SimpleProofs.
Import ListNotations.
Local Open Scope R_scope.

Definition nine : list gasSp := [O2; O_; H2; H_; OH; H2O; CO; C2H2; C6H6].
Lemma fits_gas (g : gas) l : (forall sp, 0 <= gY g sp <= 1) -> tooMuch XR (map Fin (map (gY g) l)) = false.
Proof.
  intros H. unfold tooMuch. induction l as [|sp l IH]; [reflexivity|]. cbn [map existsb]. rewrite IH. specialize (H sp).
  change (@nltb XR) with xltb. change (@nZ XR 0) with (Fin 0). change (@nZ XR 1) with (Fin 1). rewrite (xltb_false (gY g sp) 0) by lra. rewrite (xltb_false 1 (gY g sp)) by lra. reflexivity.
Qed.
Lemma C85_values_ eig f g M0 M1 : 0 < f -> physical g -> gCMin g = 100 -> 0 < M0 -> 0 <= M1 ->
  let k := mkMechs N_LL G_LL O_LL C_FM f in
  let x := M1 / M0 in
  let formed := Jnuc k g * nucMass g in
  let grown := kgrow k g M0 M1 * (M0 * sphere x) in
  let burnt := koxid k g M0 M1 * (M0 * sphere x) in
  simpleCpp (N:=XR) eig (Fin f) (Fin (gT g)) (Fin (gP g)) (Fin (gRho g)) (Fin (gMu g)) (map Fin (map (gY g) nine)) (map Fin (map (gPah g) allPah)) [Fin M0; Fin M1] =
  Ok ([Fin (Jnuc k g - 1 / 2 * kernel k g x x * M0 ^ 2); Fin (formed + grown - burnt)],
      map Fin [- (burnt / massC / 2 * molarMass O2); 0; (formed + grown) / (2 * massC) * molarMass H2; 0; 0; 0;
               burnt / massC * molarMass CO; - ((formed + grown) / (2 * massC) * molarMass C2H2); 0; 0]).
Proof.
  intros Pf (OG & G1 & GP) EC P0 P1 k x formed grown burnt. pose proof OG as (Pt & Pp & Pr & Pm & Pc & Pg & Py).
  assert (G01 : forall sp, 0 <= gY g sp <= 1) by (intros sp; split; auto).
  destruct (argsOf_any (newState 2 0) g [M0; M1] [] eq_refl eq_refl eq_refl OG G1 GP) as (s & E & V & _ & W & A & _).
  { intros z [<-|[<-|[]]]; lra. } { intros z []. }
  unfold call, argsOf in E. cbn [aT aP arho amu ayGas ayPah asoot ansoot atar aNtar acMin map length] in E. rewrite EC in E. change (Z.of_nat 2) with 2%Z in E. change (Z.of_nat 0) with 0%Z in E.
  change (Fin 100) with (@nZ XR 100) in E.
  destruct (set_gas XR XR_cmpLaws (Fin (gT g)) (Fin (gP g)) (Fin (gRho g)) (Fin (gMu g)) (map Fin (map (gY g) nine)) (map Fin (gasVec (gY g))) (map Fin (map (gPah g) allPah)) (Fin M0) (Fin M1)) as
    [(e & u1 & u2 & E1 & E2)|(s1 & s2 & E1 & E2 & SR & Lw & La & Ls)].
  - rewrite (fits_gas g nine G01). symmetry. apply (fits_gas g allGas G01).
  - reflexivity.
  - cbn. lia.
  - cbn. lia.
  - exfalso. unfold pahVec in E. pose proof (eq_trans (eq_sym E2) E) as HH. discriminate HH.
  - unfold pahVec in E. pose proof (eq_trans (eq_sym E2) E) as HH. assert (s2 = s) by (now inversion HH). subst s2. clear HH.
    destruct (same_sources XR 0 0 (Fin f) eig s1 s SR) as (q & gs & S1 & S2 & Lq & Lg); try lia.
    refine (eq_trans (cpp_run XR eig (Fin f) _ _ _ _ _ _ _ _ E1 q gs S1 Lq Lg) _).
    destruct (mono_full (theModel XR 0 (Fin f)) s g k M0 M1 None eig) as (m' & R1 & R2 & (R3 & R4) & _); auto.
    + split; [reflexivity|]. split; [reflexivity|]. split; reflexivity.
    + split; [left; repeat split; discriminate|]. repeat split; try discriminate. exact Pf.
    + reflexivity.
    + intros [|]; discriminate.
    + rewrite W. reflexivity.
    + rewrite A. reflexivity.
    + rewrite R1 in S2. cbn [shown] in S2. unfold soots, gases in *. rewrite R2 in S2.
      apply (f_equal (fun r => match r with Ok x => x | _ => ([], []) end)) in S2. pose proof (f_equal fst S2) as Fq. pose proof (f_equal snd S2) as Fg. cbn [fst snd] in Fq, Fg.
      clear S1 S2 Lq. subst q. rewrite Fg in R4.
      do 11 (destruct gs as [|?x gs]; [discriminate Lg|]). destruct gs; [|discriminate Lg]. cbn [firstn skipn app].
      pose proof (R4 O2) as Q0. pose proof (R4 O_) as Q1. pose proof (R4 H2) as Q2. pose proof (R4 H_) as Q3. pose proof (R4 OH) as Q4. pose proof (R4 H2O) as Q5.
      pose proof (R4 CO) as Q6. pose proof (R4 C2H2) as Q7. pose proof (R4 C6H6) as Q8. pose proof (R4 CO2) as Q10. clear R4.
      cbn [gasIdx nth_error] in *.
      set (o := nucl k g (M0 * kernel k g (dimerMass g) (M1 / M0))) in *.
      assert (VAL : forall sp, nuclPart k g o sp + growGas (mG k) (kgrow k g M0 M1 * (M0 * sphere (M1 / M0))) sp + oxidGas (mO k) (koxid k g M0 M1 * (M0 * sphere (M1 / M0))) sp =
        viaAcetylene formed sp + viaAcetylene grown sp + oxidGas O_LL burnt sp) by (intros sp; reflexivity).
      pose proof massC_pos as PC. rewrite VAL in Q0, Q1, Q2, Q3, Q4, Q5, Q6, Q7, Q8, Q10. injection Q0 as ->. injection Q1 as ->. injection Q2 as ->. injection Q3 as ->. injection Q4 as ->.
      injection Q5 as ->. injection Q6 as ->. injection Q7 as ->. injection Q8 as ->. injection Q10 as ->. clear VAL Fg R3 Lg R1 E E1 E2.
      change (oJ o) with (Jnuc k g). change (oN1 o) with formed. change (oMass o) with 0. change (oConc o) with 0. fold x. clearbody formed.
      unfold viaAcetylene, oxidGas, reacts. cbn [map].
      replace ((kgrow k g M0 M1 - koxid k g M0 M1) * (M0 * sphere x)) with (grown - burnt) by (unfold grown, burnt; ring). clearbody grown burnt.
      apply (f_equal Ok). apply f_equal2; repeat (match goal with |- _ :: _ = _ :: _ => apply f_equal2 end); try reflexivity; apply (f_equal Fin); field; lra.
Qed.

(** ** the tar data of the Fortran program *)
Lemma nan_add_l x : xadd NaN x = NaN.
Proof. destruct x; reflexivity. Qed.
Lemma nan_add_r x : xadd x NaN = NaN.
Proof. destruct x; reflexivity. Qed.
Lemma nan_mul_l x : xmul NaN x = NaN.
Proof. destruct x; reflexivity. Qed.
Lemma nan_mul_r x : xmul x NaN = NaN.
Proof. destruct x; reflexivity. Qed.
Lemma nan_div_l x : xdiv NaN x = NaN.
Proof. destruct x; reflexivity. Qed.
Lemma inf_scale c : 0 < c -> xmul (Fin c) NInf = NInf.
Proof. intros H. cbn [xmul]. unfold signed. destruct (Rlt_dec 0 (- c)); [lra|]. destruct (Rlt_dec (- c) 0); [reflexivity|lra]. Qed.
Lemma zero_inf : xmul (Fin 0) NInf = NaN.
Proof. cbn [xmul]. unfold signed. destruct (Rlt_dec 0 (- 0)); [lra|]. destruct (Rlt_dec (- 0) 0); [lra|reflexivity]. Qed.
Lemma zero_pinf : xmul (Fin 0) PInf = NaN.
Proof. cbn [xmul]. unfold signed. destruct (Rlt_dec 0 0); [lra|reflexivity]. Qed.
Lemma log_zero : xlog10 (xdiv (Fin 0) (Fin 101325)) = NInf.
Proof.
  cbn [xdiv]. destruct (Req_EM_T 101325 0); [lra|]. replace (0 / 101325) with 0 by field. cbn [xlog10].
  destruct (Rlt_dec 0 0); [lra|]. destruct (Req_EM_T 0 0); [reflexivity|lra].
Qed.
Lemma bio_nan (b0 b1 b2 b3 b4 : xr) (s : state (N:=XR)) : T s = Fin 0 -> P s = Fin 0 -> yBio s = [b0; b1; b2; b3; b4] -> get_mtar_ytar s = Ok (with_my s NaN NaN).
Proof.
  intros ET EP EB. unfold get_mtar_ytar. rewrite ET, EP, EB. cbn [vget nth_error bind]. change (@nlog10 XR) with xlog10. change (@ndiv XR) with xdiv. change (@nZ XR 101325) with (Fin 101325). rewrite log_zero.
  change (@nmul XR) with xmul. change (@nadd XR) with xadd. cbv zeta.
  apply (f_equal Ok). apply f_equal2.
  - assert (E : xmul (Fin 0) (xadd (@nZ XR 50) (xmul (@nZ XR 26) NInf)) = NaN).
    { change (@nZ XR 26) with (Fin 26). rewrite inf_scale by lra. change (xadd (@nZ XR 50) NInf) with NInf. exact zero_inf. }
    rewrite E. rewrite nan_add_l, nan_div_l, nan_mul_l, nan_add_r, !nan_add_l. reflexivity.
  - assert (E : xmul (Fin 0) (nsub (Num:=XR) (xmul (@nlit XR 36 (-6)) (Fin 0)) (xmul (@nlit XR 36 (-3)) NInf)) = NaN).
    { change (@nlit XR 36 (-3)) with (Fin (IZR 36 / IZR 1000)). rewrite inf_scale by lra. exact zero_pinf. }
    rewrite E. rewrite nan_add_r, nan_mul_r, nan_add_r, nan_div_l, nan_mul_l, !nan_add_l. reflexivity.
Qed.
Lemma C85_mtar_ (bio : list xr) : length bio = 5%nat -> exists s, fortState (N:=XR) bio = Ok s /\ mtar s = NaN /\ ytar s = NaN /\
  forall a s', call s a = SetOk s' -> mtar s' = NaN /\ ytar s' = NaN.
Proof.
  intros L. do 5 (destruct bio as [|?b bio]; [discriminate|]). destruct bio; [|discriminate].
  exists (with_my (N:=XR) (with_yBio (N:=XR) (newState 2 1) [b; b0; b1; b2; b3]) NaN NaN). split; [|split; [reflexivity|split; [reflexivity|]]].
  - change (fortState (N:=XR) [b; b0; b1; b2; b3]) with (get_mtar_ytar (with_yBio (N:=XR) (newState (N:=XR) 2 1) [b; b0; b1; b2; b3])). apply (bio_nan b b0 b1 b2 b3); reflexivity.
  - intros a s' E. match type of E with call ?s0 _ = _ => pose proof (describe XR_cmpLaws s0 a) as D end. rewrite E in D. inversion D as [? Ha Hst B1 B2| |]; subst.
    destruct Hst as (_ & _ & _ & _ & _ & _ & _ & _ & _ & _ & _ & _ & R). destruct R. tauto.
Qed.
Lemma C85_mtar_ieee_ lm (bio : list spec_float) : lm_log10 lm (S754_zero false) = S754_infinity true -> length bio = 5%nat -> exists s, fortState (N:=F64 lm) bio = Ok s /\ mtar s = S754_nan /\ ytar s = S754_nan.
Proof.
  intros H L. do 5 (destruct bio as [|?b bio]; [discriminate|]). destruct bio; [|discriminate].
  change (fortState (N:=F64 lm) [b; b0; b1; b2; b3]) with (get_mtar_ytar (with_yBio (N:=F64 lm) (newState (N:=F64 lm) 2 1) [b; b0; b1; b2; b3])). unfold get_mtar_ytar.
  eexists. split; [reflexivity|]. cbn [mtar ytar with_my].
  assert (EP : @nlog10 (F64 lm) (ndiv (P (with_yBio (N:=F64 lm) (newState (N:=F64 lm) 2 1) [b; b0; b1; b2; b3])) (nZ 101325)) = S754_infinity true) by exact H.
  rewrite EP.
  split; vm_compute; reflexivity.
Qed.
(** ** cases *)
Lemma C85_data_ : let y sp := match sp with O2 => 5 / 100 | O_ => 1 / 1000 | H2 => 2 / 1000 | H_ => 3 / 10000 | OH => 3 / 1000 | H2O => 7 / 100 | CO => 1 / 10
    | C2H2 => 2 / 1000 | C6H6 => 18 / 100 | _ => 0 end in
  let g := mkGas 2100 101325 (1 / 10) (1 / 100000) 100 y (fun _ => 0) in
  0 < 9 / 2 / (22 / 10) /\ physical g /\ gCMin g = 100 /\ 0 < 3 / 1000 /\ 0 <= 15 / 1000000.
Proof.
  cbv zeta. split; [lra|]. split; [|split; [reflexivity|split; lra]]. unfold physical, okGas. cbn [gT gP gRho gMu gCMin gY gPah].
  split; [|split].
  - repeat (split; [lra|]). split; [intros sp; destruct sp; lra|intros; lra].
  - intros sp; destruct sp; lra.
  - cbn. lra.
Qed.
Lemma C85_hmom_data_ : exists s, call (newState (N:=XR) 4 0) (argsOf demoGas [1; 1; 1; 1] []) = SetOk s /\ gCMin demoGas = 100.
Proof.
  destruct (demo_any (newState 4 0) [1; 1; 1; 1] [] eq_refl eq_refl eq_refl) as (s & E & _); [intros z H; cbn in H; intuition lra|intros z []|]. exists s. split; [exact E|reflexivity].
Qed.
