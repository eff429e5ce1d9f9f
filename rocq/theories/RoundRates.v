(** Rounding errors of the rates: the model evaluated symbolically gives the expressions to analyse. *)
From Coq Require Import ZArith List Bool Reals Lra Lia.
From Coq.Floats Require Import SpecFloat.
From Verif Require Import Num Defs State Nucl Growth Oxid Coag XR F64 SpecBinomial SpecState SpecChem SpecCoag SpecValid SpecRates SpecRound
  StateProofs RateProofs CoagProofs RoundProofs RoundExpr.
Import ListNotations.
Local Open Scope R_scope.

(** expressions as numbers: every test is decided the way it goes for positive masses above the cutoff *)
Definition Sym : Num := {|
  num := expr; nlit := ELit; nadd := EAdd; nsub := fun a b => EVar 0; nmul := EMul; ndiv := EDiv; nopp := EOpp; nabs := fun a => EVar 0;
  nsqrt := ESqrt; nexp := EExp; nlog := fun a => EVar 0; nlog10 := fun a => EVar 0; ntanh := fun a => EVar 0; npow := EPow;
  nltb := fun _ _ => true; nleb := fun _ _ => false; neqb := fun _ _ => false; nfin := fun _ => true; ntrunc := fun _ => None |}.
Definition symMW : expr := EDiv (EMul (EMul (EVar 2) (@Rg Sym)) (EVar 0)) (EVar 1).
Definition symS : state (N:=Sym) :=
  mkState (N:=Sym) (EVar 0) (EVar 1) (EVar 2) symMW (EVar 3) (map EVar (seq 10 11)) (map EVar (seq 30 6))
    2 [EVar 5; EVar 6] [] [] [] (EVar 4) 0 [] [] (EVar 0) (EVar 0) (EVar 0) (EVar 0) (EVar 0).
Definition okOr (r : res expr) : expr := match r with Ok e => e | _ => EVar 0 end.

Section Gen.
Context {N : Num} (fe : nat -> num) (s : state (N:=N)).
Record sEnv : Prop := {
  eT : T s = fe 0%nat; eP : P s = fe 1%nat; eR : rhoGas s = fe 2%nat; eMu : muGas s = fe 3%nat; eC : cMin s = fe 4%nat;
  eMW : MWGas s = ev fe symMW;
  eY : forall sp, vget (yGas s) (gasIdx sp) = Ok (fe (10 + gasIdx sp)%nat);
  eY' : forall sp, vget (yPah s) (pahIdx sp) = Ok (fe (30 + pahIdx sp)%nat);
  eM0 : vget (sootVar s) 0 = Ok (fe 5%nat); eM1 : vget (sootVar s) 1 = Ok (fe 6%nat) }.
Hypothesis E : sEnv.
Notation sym f := (ev fe (okOr f)).

Lemma conc_sym sp : getGasSpC s sp = Ok (sym (getGasSpC symS sp)).
Proof. unfold getGasSpC. rewrite (eY E), (eR E). destruct sp; reflexivity. Qed.
Lemma press_sym sp : getGasSpP s sp = Ok (sym (getGasSpP symS sp)).
Proof. unfold getGasSpP. rewrite (eY E), (eMW E), (eP E). destruct sp; reflexivity. Qed.
Lemma mfp_sym : getGasMeanFreePath s = ev fe (getGasMeanFreePath symS).
Proof. unfold getGasMeanFreePath. rewrite (eMW E), (eMu E), (eR E), (eT E). reflexivity. Qed.

Definition nuclE (c : nucleationMech) : expr := okOr
  match c with N_LL => nuclLL symS | N_LIN => nuclLIN symS | N_LINA1 => nuclLINA1 symS | N_MB => nuclMB symS | N_FAIR => nuclFAIR symS | _ => Ok (ELit 0 0) end.
Lemma nucl_sym coll nu : gasOnly (nu_class nu) -> nuclRate coll nu s = Ok (ev fe (nuclE (nu_class nu)), nu, s, None).
Proof.
  intros (K1 & K2 & K3). unfold nuclRate, nuclE. destruct (nu_class nu); try congruence; try reflexivity;
  unfold nuclLL, nuclLIN, nuclLINA1, nuclMB, nuclFAIR; rewrite conc_sym, (eT E), ?(eC E); reflexivity.
Qed.

Definition oxidE (c : oxidationMech) : expr := okOr
  match c with O_LL => oxidLL symS | O_FAIR => oxidFAIR symS | O_LEE_NEOH => oxidLEE_NEOH symS | O_OPTJ => oxidOPTJ symS | O_OPTG => oxidOPTG symS
  | O_MB => c <- getGasSpC symS OH ;; Ok (EMul (EMul (ELit 42325 (-4)) c) (ESqrt (T symS))) | O_AJ_RED => oxidAJ_RED symS | O_BROWN => oxidBROWN symS | _ => Ok (ELit 0 0) end.
Lemma oxid_sym o v : sv_psd v <> P_SECT -> ox_class o <> O_NSC_NEOH -> ox_class o <> O_HACA -> oxidRate o v s = Ok (ev fe (oxidE (ox_class o))).
Proof.
  intros NS K1 K2. unfold oxidRate, oxidE. destruct (ox_class o); try congruence; try reflexivity.
  - unfold oxidLL. rewrite conc_sym, (eT E). reflexivity.
  - unfold oxidLEE_NEOH, neohOH. rewrite press_sym, conc_sym, (eT E). reflexivity.
  - unfold oxidMB, getM01. destruct (sv_psd v); try congruence; rewrite (eM0 E), (eM1 E), conc_sym, (eT E); reflexivity.
  - unfold oxidFAIR. rewrite conc_sym, (eT E). reflexivity.
  - unfold oxidAJ_RED. rewrite !press_sym, (eT E). reflexivity.
  - unfold oxidBROWN. rewrite !press_sym, (eT E). reflexivity.
  - unfold oxidOPTJ, neohOH. rewrite press_sym, conc_sym, (eT E). reflexivity.
  - unfold oxidOPTG, neohOH. rewrite press_sym, conc_sym, (eT E). reflexivity.
Qed.

(** surface of the soot *)
Definition areaE : expr := growArea (N:=Sym) (EVar 5) (EVar 6).
Lemma area_sym : nltb (nZ 0) (fe 5%nat) = true -> growArea (fe 5%nat) (fe 6%nat) = ev fe areaE.
Proof. intro H. unfold growArea. rewrite H. reflexivity. Qed.
Definition vM : smView (N:=Sym) := mkView P_MONO 2 [].
Definition growE (c : growthMech) : expr := okOr
  match c with G_LL => growLL vM symS | G_LIN => growLIN symS | G_FAIR => growFAIR vM symS | G_MB => growMB vM symS | _ => Ok (ELit 0 0) end.
Lemma grow_sym gr v : sv_psd v <> P_SECT -> gr_class gr <> G_HACA -> nltb (nZ 0) (fe 5%nat) = true -> nltb (nZ 0) (ev fe areaE) = true ->
  growRate gr v s = Ok (ev fe (growE (gr_class gr))).
Proof.
  intros NS K1 P0 PA. unfold growRate, growE. destruct (gr_class gr); try congruence; try reflexivity.
  - unfold growLL, getM01. destruct (sv_psd v); try congruence; rewrite (eM0 E), (eM1 E); cbn [bind]; cbv zeta; rewrite (area_sym P0), PA, conc_sym, (eT E); reflexivity.
  - unfold growLIN. rewrite conc_sym, (eT E). reflexivity.
  - unfold growMB, getM01. destruct (sv_psd v); try congruence; rewrite (eM0 E), (eM1 E); cbn [bind]; cbv zeta; rewrite (area_sym P0), PA, conc_sym, (eT E); reflexivity.
  - unfold growFAIR, getM01. destruct (sv_psd v); try congruence; rewrite (eM0 E), (eM1 E); cbn [bind]; cbv zeta; rewrite (area_sym P0), PA, conc_sym, (eT E); reflexivity.
Qed.
(** no surface *)
Lemma grow_none gr v : sv_psd v <> P_SECT -> gr_class gr <> G_HACA -> nltb (nZ 0) (growArea (fe 5%nat) (fe 6%nat)) = false ->
  growRate gr v s = Ok (if match gr_class gr with G_LIN => true | _ => false end then ev fe (growE G_LIN) else nZ 0).
Proof.
  intros NS K1 PA. unfold growRate. destruct (gr_class gr); try congruence; try reflexivity.
  - unfold growLL, getM01. destruct (sv_psd v); try congruence; rewrite (eM0 E), (eM1 E); cbn [bind]; cbv zeta; rewrite PA; reflexivity.
  - unfold growLIN. rewrite conc_sym, (eT E). reflexivity.
  - unfold growMB, getM01. destruct (sv_psd v); try congruence; rewrite (eM0 E), (eM1 E); cbn [bind]; cbv zeta; rewrite PA; reflexivity.
  - unfold growFAIR, getM01. destruct (sv_psd v); try congruence; rewrite (eM0 E), (eM1 E); cbn [bind]; cbv zeta; rewrite PA; reflexivity.
Qed.

(** kernels of two masses, environment entries 7 and 8; multiplier 9 *)
Definition kernE (c : coagulationMech) (m1 m2 f : expr) : expr := coagRate (N:=Sym) (mkCoag (N:=Sym) c c f) symS m1 m2.
Lemma kern_sym c m1 m2 f : co_FM c = ev fe f -> co_class c <> C_FUCHS -> nleb (ev fe m1) mmin = false -> nleb (ev fe m2) mmin = false ->
  coagRate c s (ev fe m1) (ev fe m2) = ev fe (kernE (co_class c) m1 m2 f).
Proof.
  intros F K L1 L2. unfold coagRate, kernE. cbn [co_class coagRate]. destruct (co_class c); try congruence; try reflexivity;
  unfold kernelFM, kernelCONT, kernelHM, getKfm, getKc, tooSmall; rewrite L1, L2; cbn [orb]; rewrite ?F, ?mfp_sym, ?(eT E), ?(eMu E); reflexivity.
Qed.
End Gen.
