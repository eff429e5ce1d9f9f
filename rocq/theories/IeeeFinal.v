(** Signs in IEEE arithmetic, assembled for C72. *)
From Coq Require Import ZArith List Bool Lia Reals Lra.
From Coq.Floats Require Import SpecFloat.
From Flocq Require Import Core IEEE754.BinarySingleNaN.
From Verif Require Import Num Defs State Coag Nucl Growth Oxid Tar SootModel Mono Calls XR F64 SpecBinomial SpecState SpecFrame SpecPsd SpecIeee SpecRound StateProofs NumLaws FrameMain RoundProofs RoundCases IeeeProofs IeeeMain IeeeMono.
Import ListNotations.

Section Final.
Context (lm : libm) (HS : sane lm).
Notation FN := (F64 lm).

Lemma C72_nucl_ (a : args FN) s0 s coll nu x nu' s' e : anyDoubles a -> call s0 a = SetOk s -> nuclRate coll nu s = Ok (x, nu', s', e) -> ~ negative x.
Proof. intros D C E. apply neg_iff. exact (nucl_any lm HS s (after_set lm s0 s a C D) nu coll _ E). Qed.
Lemma C72_grow_ (a : args FN) s0 s gr v x : anyDoubles a -> call s0 a = SetOk s -> growRate gr v s = Ok x -> ~ negative x.
Proof. intros D C E. apply neg_iff. exact (grow_nn lm HS s (after_set lm s0 s a C D) gr v _ E). Qed.
Lemma C72_oxid_ (a : args FN) s0 s o v x : anyDoubles a -> call s0 a = SetOk s -> oxidRate o v s = Ok x -> ~ negative x.
Proof. intros D C E. apply neg_iff. exact (oxid_nn lm HS s (after_set lm s0 s a C D) o v _ E). Qed.
Lemma C72_kern_ (a : args FN) s0 s (c : coagObj (N:=FN)) m1 m2 : anyDoubles a -> call s0 a = SetOk s -> aboveZero (co_FM c) -> ~ negative (coagRate c s m1 m2).
Proof. intros D C F. apply neg_iff. apply coag_nn; [exact HS|exact (after_set lm s0 s a C D)|]. apply gt_un. exact F. Qed.

Lemma C72_mono_ k (f : spec_float) ns nt F c (m : model (N:=FN)) l g0 s0 g1 m1 s1 (a : args FN) s eig g2 m2 s2 :
  aboveZero f ->
  constructPtr P_MONO ns (newNucl (mN k)) (newGrow (mG k)) (newOxid (mO k)) (set_FM_multiplier (newCoag (mC k)) (f : @num FN)) nt (newTar T_NONE) F c = Ok m ->
  runActions (g0, m, s0) l = Ok (g1, m1, s1) -> anyDoubles a -> call s1 a = SetOk s -> (mN k = N_PAH -> aboveZero (nth 0 (asoot a) (S754_zero false))) ->
  setSourceTerms g1 eig m1 s = Ok (g2, m2, s2) ->
  exists q0 q1, sootSources (sm_sources m2) = [q0; q1] /\
    (mN k = N_NONE -> ~ aboveZero q0) /\ (mC k = C_NONE -> ~ negative q0) /\
    (mO k = O_NONE -> ~ negative q1) /\ (mN k = N_NONE -> mG k = G_NONE -> ~ aboveZero q1) /\
    (mN k <> N_PAH -> forall sp, let q := nth (gasIdx sp) (gasSources (sm_sources m2)) (S754_zero false) in
       (sp = O2 \/ sp = OH \/ sp = C2H2 \/ sp = C6H6 -> ~ aboveZero q) /\ (sp = CO \/ sp = H2 \/ sp = H2O -> ~ negative q)).
Proof.
  intros PF CO RU D C HP R. assert (UF : unsigned f) by (apply gt_un; exact PF).
  assert (KM : keepsModel m m1) by (apply (C60_config_ l g0 m s0 g1 m1 s1); [right; do 10 eexists; exact CO|exact RU]).
  unfold constructPtr, build in CO. destruct (derivedCheck _ _ _ _) in CO; try discriminate CO. cbn [bind] in CO. injection CO as CO. subst m.
  destruct KM as (K1 & _ & _ & K2 & K3 & K4 & K5 & _ & _ & _ & K6 & K7 & K8 & _). cbn [sm_psd sm_grow sm_oxid sm_coag sm_tar sm_nucl nu_class nu_mech newNucl] in * .
  assert (H : holdsI lm k f m1) by (refine (conj K1 (conj K6 (conj K7 (conj K8 (conj K2 (conj K3 (conj K4 K5)))))))).
  unfold setSourceTerms in R. rewrite K1 in R.
  destruct (setSourceTermsMONO m1 s) as [[m3 s3]| |] eqn:E; try discriminate R. cbn [bind] in R.
  apply (f_equal (fun r => match r with Ok x => snd (fst x) | _ => m2 end)) in R. cbn in R. subst m3.
  assert (HP' : mN k = N_PAH -> all (fun x => SFltb (S754_zero false) x = true) (vget (sootVar s) 0)).
  { intros Q x Ex. specialize (HP Q).
    assert (NU : call s1 a <> SetUB) by (rewrite C; discriminate).
    destruct (proj1 (proj2 (C01_accepts (N:=FN) (F64_cmpLaws lm) s1 a NU)) s C) as (_ & _ & _ & _ & _ & _ & _ & CL & _). destruct CL as [CL1 CL2].
    destruct (asoot a) as [|v0 vs] eqn:EA; [discriminate HP|]. specialize (CL2 0%nat v0 eq_refl).
    unfold vget in Ex. rewrite CL2 in Ex. destruct ((Z.of_nat 0 <? st_nsoot s1)%Z && nltb v0 (nZ 0))%bool eqn:EB.
    - apply andb_true_iff in EB. destruct EB as [_ EB]. cbn [nth] in HP. unfold aboveZero in HP. clear - EB HP. exfalso. destruct v0 as [[]|[]| |[] ? ?]; discriminate.
    - injection Ex as <-. exact HP. }
  destruct (mono_all lm HS k f UF m1 s (after_set lm s1 s a C D) H HP' _ E) as (t & m' & HT & HM & ES & EG). cbn [fst] in ES, EG.
  destruct HT as (T1 & T2 & T3 & T4 & T5 & T6 & Z1 & Z2 & Z3 & Z4).
  pose proof (zero_nn lm) as Zn. pose proof (zero_np lm) as Zp.
  exists (mt_N0 t +. nZ (N:=FN) 0 +. nZ (N:=FN) 0 +. nZ (N:=FN) 0 +. mt_C0 t), (mt_N1 t +. mt_Cnd1 t +. mt_G1 t +. mt_X1 t +. nZ (N:=FN) 0).
  split; [exact ES|]. split; [|split; [|split; [|split]]].
  - intros Q. destruct (Z1 Q) as (-> & _). apply pos_iff. repeat apply add_np; assumption.
  - intros Q. rewrite (Z4 Q). apply neg_iff. repeat apply add_nn; assumption.
  - intros Q. rewrite (Z3 Q). apply neg_iff. repeat apply add_nn; assumption.
  - intros Q Q'. destruct (Z1 Q) as (_ & -> & ->). rewrite (Z2 Q'). apply pos_iff. repeat apply add_np; assumption.
  - intros NP sp. destruct (gas_nth lm k f m' (mt_N1 t) (mt_G1 t) (mt_X1 t) sp HM T2 T4 T5 NP) as [G1 G2].
    rewrite EG. split; intros S; [apply pos_iff, G1, S|apply neg_iff, G2, S].
Qed.
End Final.

Lemma nearest_un r : (0 <= r)%R -> unsigned (nearest r).
Proof.
  intros H. unfold nearest. assert (Z : (0 <= ZnearestE (scaled_mantissa radix2 (SpecFloat.fexp prec64 emax64) r))%Z).
  { rewrite <- (Zrnd_IZR ZnearestE 0). apply Zrnd_le; [typeclasses eauto|]. unfold scaled_mantissa. apply Rmult_le_pos; [exact H|apply bpow_ge_0]. }
  destruct (ZnearestE _) as [|p|p]; [reflexivity|apply round_un|exfalso; apply Z; reflexivity].
Qed.
Lemma nearest_dbl r : double (nearest r).
Proof. unfold nearest. rewrite normalize_same. apply dbl_of. Qed.
Lemma sane_some : sane exactLibm.
Proof.
  split.
  - intros x. cbn [lm_exp exactLibm]. split; [apply nearest_dbl|]. apply nearest_un. left. apply exp_pos.
  - intros x y U. cbn [lm_pow exactLibm]. destruct x; try reflexivity; apply nearest_un; left; apply exp_pos.
  - intros b y _. exists false. reflexivity.
Qed.

(** arguments far outside any flame: 1e300 K, an infinite density, a subnormal viscosity, a NaN fraction and two negative zeros *)
Definition wildA lm : args (F64 lm) :=
  mkArgs (N:=F64 lm) (f64lit 1 300) (f64lit 1 5) (S754_infinity false) (S754_finite false 1 (-1074)) (S754_zero true :: S754_nan :: repeat (f64lit 1 (-1)) 7 ++ [S754_zero true; f64lit 1 (-1)])
    (repeat (S754_zero true) 6) [f64lit 1 15; f64lit 1 (-3)] 2 [] 0 (f64lit 1 2).
Lemma C72_arguments_ lm : exists s, anyDoubles (wildA lm) /\ call (newState (N:=F64 lm) 2 0) (wildA lm) = SetOk s.
Proof.
  assert (E : match call (newState (N:=F64 lm) 2 0) (wildA lm) with SetOk _ => true | _ => false end = true) by (vm_compute; reflexivity).
  destruct (call (newState (N:=F64 lm) 2 0) (wildA lm)) as [s| |] eqn:C; try discriminate E. exists s. split; [|reflexivity].
  split; [vm_compute; reflexivity|]. split; [vm_compute; reflexivity|]. split; [vm_compute; reflexivity|].
  intros y Hy. cbn [wildA ayGas app repeat In] in Hy.
  repeat (destruct Hy as [<-|Hy]; [split; [vm_compute; reflexivity|vm_compute; discriminate]|]). contradiction.
Qed.

(** no oxygen at 60 K: the NSC rate is 0/0 *)
Definition coldA lm : args (F64 lm) :=
  mkArgs (N:=F64 lm) (f64lit 60 0) (f64lit 1 5) (f64lit 1 0) (f64lit 1 (-5)) (repeat (f64lit 0 0) 11) (repeat (f64lit 0 0) 6) [f64lit 1 15; f64lit 1 (-3)] 2 [] 0 (f64lit 1 2).
Lemma C72_nan_ lm : lm_exp lm (f64lit (-48817) 0 /. f64lit 60 0) = S754_zero false ->
  exists (a : args (F64 lm)) s, (forall x, In x (aT a :: aP a :: arho a :: amu a :: acMin a :: ayGas a ++ ayPah a ++ asoot a) -> isDouble x) /\
    call (newState (N:=F64 lm) 2 0) a = SetOk s /\ forall v, oxidRate (newOxid O_NSC_NEOH) v s = Ok S754_nan.
Proof.
  intros H.
  assert (E : match call (newState (N:=F64 lm) 2 0) (coldA lm) with SetOk _ => true | _ => false end = true) by (vm_compute; reflexivity).
  destruct (call (newState (N:=F64 lm) 2 0) (coldA lm)) as [s| |] eqn:C; try discriminate E. exists (coldA lm), s.
  split. { intros x Hx. cbn [coldA aT aP arho amu acMin ayGas ayPah asoot app repeat In] in Hx.
    repeat (destruct Hx as [<-|Hx]; [split; vm_compute; reflexivity|]). contradiction. }
  split; [exact C|]. intros v.
  assert (NU : call (newState (N:=F64 lm) 2 0) (coldA lm) <> SetUB) by (rewrite C; discriminate).
  destruct (proj1 (proj2 (C01_accepts (N:=F64 lm) (F64_cmpLaws lm) _ (coldA lm) NU)) s C) as (ET & EP & _ & _ & _ & EW & _ & _ & _ & _ & EY & _).
  cbn [coldA aT aP ayGas arho] in ET, EP, EY, EW. cbn [oxidRate ox_class newOxid]. unfold oxidNSC_NEOH, getGasSpP. rewrite ET, EP, EY, EW. cbn [vget nth_error gasIdx repeat bind].
  apply f_equal. unfold nZ. cbn [nmul nadd ndiv nsub nsqrt nexp npow nlit num F64]. rewrite H.
  generalize (lm_exp lm (f64lit (-15098) 0 /. f64lit 60 0)) (lm_exp lm (f64lit (-7650) 0 /. f64lit 60 0)) (lm_exp lm (f64lit 2063 0 /. f64lit 60 0)). intros e1 e2 e4.
  match goal with |- context [?p /. f64lit 101325 0] => assert (Q : p /. f64lit 101325 0 = S754_zero false) by (vm_compute; reflexivity); rewrite !Q end.
  assert (Z : f64lit 151 3 *. S754_zero false = S754_zero false) by (vm_compute; reflexivity). rewrite Z.
  assert (B : S754_zero false /. (f64lit 446 (-5) *. e2 *. S754_zero false) = S754_nan).
  { destruct (f64lit 446 (-5) *. e2) as [[]|[]| |[] ? ?]; reflexivity. }
  rewrite B. assert (O : f64lit 1 0 /. (f64lit 1 0 +. S754_nan) = S754_nan) by (vm_compute; reflexivity). rewrite O.
  assert (R : forall y, y *. S754_nan = S754_nan) by (intros [| | |]; reflexivity). rewrite R. reflexivity.
Qed.
