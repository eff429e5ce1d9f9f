(** Computation rules for the instance [XR] and tactics built on them. *)
From Coq Require Import ZArith List Bool Reals Lra Lia.
From Verif Require Import Num Defs XR.
Import ListNotations.
Local Open Scope R_scope.

Lemma xdiv_fin a b : b <> 0 -> xdiv (Fin a) (Fin b) = Fin (a / b).
Proof. intros H; unfold xdiv. destruct (Req_EM_T b 0); [contradiction|reflexivity]. Qed.
Lemma xpow_fin a b : 0 < a -> xpow (Fin a) (Fin b) = Fin (Rpower a b).
Proof.
  intros H; unfold xpow. destruct (Req_EM_T b 0) as [->|].
  - now rewrite Rpower_O.
  - destruct (Rlt_dec 0 a); [reflexivity|contradiction].
Qed.
Lemma xpow_0pos b : 0 < b -> xpow (Fin 0) (Fin b) = Fin 0.
Proof.
  intros H; unfold xpow. destruct (Req_EM_T b 0); [lra|].
  destruct (Rlt_dec 0 0); [lra|]. destruct (Req_EM_T 0 0); [|lra].
  destruct (Rlt_dec 0 b); [reflexivity|lra].
Qed.
Lemma xpow_0neg b : b < 0 -> xpow (Fin 0) (Fin b) = PInf.
Proof.
  intros H; unfold xpow. destruct (Req_EM_T b 0); [lra|].
  destruct (Rlt_dec 0 0); [lra|]. destruct (Req_EM_T 0 0); [|lra].
  destruct (Rlt_dec 0 b); [lra|reflexivity].
Qed.
Lemma xpow_x0 x : xpow x (Fin 0) = Fin 1.
Proof. destruct x; unfold xpow; destruct (Req_EM_T 0 0); try reflexivity; lra. Qed.
Lemma xsqrt_fin a : 0 <= a -> xsqrt (Fin a) = Fin (sqrt a).
Proof. intros H; unfold xsqrt. destruct (Rlt_dec a 0); [lra|reflexivity]. Qed.
Lemma xlog_fin a : 0 < a -> xlog (Fin a) = Fin (ln a).
Proof. intros H; unfold xlog. destruct (Rlt_dec 0 a); [reflexivity|lra]. Qed.
Lemma xlog10_fin a : 0 < a -> xlog10 (Fin a) = Fin (ln a / ln 10).
Proof. intros H; unfold xlog10. destruct (Rlt_dec 0 a); [reflexivity|lra]. Qed.
Lemma xltb_true a b : a < b -> xltb (Fin a) (Fin b) = true.
Proof. intros; unfold xltb; destruct (Rlt_dec a b); [reflexivity|contradiction]. Qed.
Lemma xltb_false a b : b <= a -> xltb (Fin a) (Fin b) = false.
Proof. intros; unfold xltb; destruct (Rlt_dec a b); [lra|reflexivity]. Qed.
Lemma xleb_true a b : a <= b -> xleb (Fin a) (Fin b) = true.
Proof. intros; unfold xleb; destruct (Rle_dec a b); [reflexivity|contradiction]. Qed.
Lemma xleb_false a b : b < a -> xleb (Fin a) (Fin b) = false.
Proof. intros; unfold xleb; destruct (Rle_dec a b); [lra|reflexivity]. Qed.
Lemma xeqb_true a b : a = b -> xeqb (Fin a) (Fin b) = true.
Proof. intros; unfold xeqb; destruct (Req_EM_T a b); [reflexivity|contradiction]. Qed.
Lemma xeqb_false a b : a <> b -> xeqb (Fin a) (Fin b) = false.
Proof. intros; unfold xeqb; destruct (Req_EM_T a b); [contradiction|reflexivity]. Qed.
Lemma xltb_iff a b : xltb (Fin a) (Fin b) = true <-> a < b.
Proof. unfold xltb; destruct (Rlt_dec a b); split; auto; discriminate. Qed.
Lemma xleb_iff a b : xleb (Fin a) (Fin b) = true <-> a <= b.
Proof. unfold xleb; destruct (Rle_dec a b); split; auto; discriminate. Qed.
Lemma xeqb_iff a b : xeqb (Fin a) (Fin b) = true <-> a = b.
Proof. unfold xeqb; destruct (Req_EM_T a b); split; auto; discriminate. Qed.

Lemma signed_pos a z : 0 < a -> signed a z = PInf.
Proof. intros; unfold signed; destruct (Rlt_dec 0 a); [reflexivity|lra]. Qed.
Lemma signed_neg a z : a < 0 -> signed a z = NInf.
Proof. intros; unfold signed; destruct (Rlt_dec 0 a); [lra|]; destruct (Rlt_dec a 0); [reflexivity|lra]. Qed.
Lemma signed_0 z : signed 0 z = z.
Proof. unfold signed; destruct (Rlt_dec 0 0); [lra|]; destruct (Rlt_dec 0 0); [lra|reflexivity]. Qed.
Lemma xdiv_0 a : xdiv (Fin a) (Fin 0) = signed a NaN.
Proof. unfold xdiv. destruct (Req_EM_T 0 0); [reflexivity|lra]. Qed.

Lemma Rpower_pos a b : 0 < Rpower a b.
Proof. apply exp_pos. Qed.

(** ** Deciding signs *)
Ltac pos :=
  first [assumption | lazymatch goal with
  | |- 0 < ?a * ?b => first [assumption | apply Rmult_lt_0_compat; pos | nra]
  | |- 0 < ?a / ?b => first [assumption | apply Rdiv_lt_0_compat; pos]
  | |- 0 < ?a + ?b => first [lra | apply Rplus_lt_0_compat; pos | apply Rplus_le_lt_0_compat; [nneg|pos]
                            | apply Rplus_lt_le_0_compat; [pos|nneg] ]
  | |- 0 < exp _ => apply exp_pos
  | |- 0 < Rpower _ _ => apply exp_pos
  | |- 0 < sqrt _ => apply sqrt_lt_R0; pos
  | |- 0 < / _ => apply Rinv_0_lt_compat; pos
  | |- 0 < ?a => first [assumption | lra | solve [eauto with xpos]]
  | |- ?a > 0 => change (0 < a); pos
  | |- _ => lra
  end]
with nneg :=
  first [assumption | lazymatch goal with
  | |- 0 <= ?a * ?b => first [assumption | apply Rmult_le_pos; nneg | nra]
  | |- 0 <= ?a / ?b => first [assumption | apply Rmult_le_pos; [nneg|apply Rlt_le, Rinv_0_lt_compat; pos]]
  | |- 0 <= ?a + ?b => first [lra | apply Rplus_le_le_0_compat; nneg]
  | |- 0 <= sqrt _ => apply sqrt_pos
  | |- 0 <= Rabs _ => apply Rabs_pos
  | |- 0 <= exp _ => apply Rlt_le, exp_pos
  | |- 0 <= Rpower _ _ => apply Rlt_le, exp_pos
  | |- 0 <= ?a => first [assumption | lra | apply Rlt_le; pos]
  | |- _ => lra
  end].
Ltac nz :=
  lazymatch goal with
  | |- ?a <> 0 => first [assumption | lra | apply Rgt_not_eq; unfold Rgt; pos | apply Rlt_not_eq; lra ]
  end.

(** ** Constants *)
Definition rNa : R := rlit 602214076 18.
Definition rkb : R := rlit 1380649 (-29).
Definition rpi : R := rlit 314159265358979323846 (-20).
Definition rmmin : R := rlit 2 (-26).
Lemma rlit_0 z : rlit z 0 = IZR z. Proof. reflexivity. Qed.
Lemma rlit_pos m e : (0 < m)%Z -> 0 < rlit m e.
Proof.
  intros H. assert (Hp : forall p, (0 < Z.pow_pos 10 p)%Z).
  { intros p. change (Z.pow_pos 10 p) with (10 ^ Zpos p)%Z. apply Z.pow_pos_nonneg; lia. }
  destruct e; simpl.
  - now apply IZR_lt.
  - apply IZR_lt. apply Z.mul_pos_pos; auto.
  - apply Rdiv_lt_0_compat; apply IZR_lt; auto.
Qed.
Lemma rNa_pos : 0 < rNa. Proof. now apply rlit_pos. Qed.
Lemma rkb_pos : 0 < rkb. Proof. now apply rlit_pos. Qed.
Lemma rpi_pos : 0 < rpi. Proof. now apply rlit_pos. Qed.
Lemma rmmin_pos : 0 < rmmin. Proof. now apply rlit_pos. Qed.
#[global] Hint Resolve rNa_pos rkb_pos rpi_pos rmmin_pos : xpos.
#[global] Hint Extern 1 (0 < rlit _ _) => (apply rlit_pos; reflexivity) : xpos.

Lemma X_Na : @Na XR = Fin rNa. Proof. reflexivity. Qed.
Lemma X_kb : @kb XR = Fin rkb. Proof. reflexivity. Qed.
Lemma X_pi : @M_PI XR = Fin rpi. Proof. reflexivity. Qed.
Lemma X_mmin : @mmin XR = Fin rmmin. Proof. reflexivity. Qed.
Lemma X_Rg : @Rg XR = Fin (rNa * rkb). Proof. reflexivity. Qed.
Lemma X_rhoSoot : @rhoSoot XR = Fin 1850. Proof. reflexivity. Qed.
Lemma X_epsc : @eps_c XR = Fin (22 / 10). Proof. reflexivity. Qed.
Lemma X_bCoag : @bCoag XR = Fin (8536 / 10000). Proof. reflexivity. Qed.
Lemma X_onethird : @onethird XR = Fin (1 / 3).
Proof. change (xdiv (Fin 1) (Fin 3) = Fin (1 / 3)). now rewrite xdiv_fin by lra. Qed.
Lemma X_twothird : @twothird XR = Fin (2 / 3).
Proof. change (xdiv (Fin 2) (Fin 3) = Fin (2 / 3)). now rewrite xdiv_fin by lra. Qed.
Lemma X_root2 : @root2 XR = Fin (sqrt 2).
Proof. change (xsqrt (Fin 2) = Fin (sqrt 2)). now rewrite xsqrt_fin by lra. Qed.

(** molecular weights *)
Definition rMW (s : gasSp) : R :=
  match s with O2 => 31998 | O_ => 15999 | H2 => 2016 | H_ => 1008 | OH => 17007 | H2O => 18015
             | CO => 28010 | C2H2 => 26038 | C6H6 => 78114 | C_ => 12011 | CO2 => 44009 end / 1000.
Lemma X_MW s : @MWof XR s = Fin (rMW s). Proof. destruct s; reflexivity. Qed.
Lemma rMW_pos s : 0 < rMW s. Proof. destruct s; unfold rMW; lra. Qed.
#[global] Hint Resolve rMW_pos : xpos.
Definition rpahMW (s : pahSp) : R :=
  match s with C10H8 => 128174 | C12H8 => 152196 | C12H10 => 154212
             | C14H10 => 178234 | C16H10 => 202256 | C18H10 => 226278 end / 1000.
Lemma X_pahMW s : @pahMW XR s = Fin (rpahMW s). Proof. destruct s; reflexivity. Qed.
Lemma rpahMW_pos s : 0 < rpahMW s. Proof. destruct s; unfold rpahMW; lra. Qed.
#[global] Hint Resolve rpahMW_pos : xpos.
Definition rpahGamma (s : pahSp) : R :=
  match s with C10H8 => 133 | C12H8 => 267 | C12H10 => 850
             | C14H10 => 1500 | C16H10 => 2500 | C18H10 => 3900 end / 100000.
Lemma X_pahGamma s : @pahGamma XR s = Fin (rpahGamma s).
Proof. destruct s; unfold pahGamma, rpahGamma; cbn; f_equal; lra. Qed.
Lemma rpahGamma_pos s : 0 < rpahGamma s. Proof. destruct s; unfold rpahGamma; lra. Qed.
#[global] Hint Resolve rpahGamma_pos : xpos.

Global Opaque rNa rkb rpi rmmin rMW rpahMW rpahGamma.

(** expose the XR operations *)
Ltac xcbn :=
  unfold nZ, nn in *;
  cbn [nlit nadd nsub nmul ndiv nopp nabs nsqrt nexp nlog nlog10 ntanh npow nltb nleb neqb nfin ntrunc num XR] in *.
Lemma xlitE m e : @nlit XR m e = Fin (rlit m e). Proof. reflexivity. Qed.

Ltac xconst :=
  rewrite ?X_Na, ?X_kb, ?X_pi, ?X_mmin, ?X_Rg, ?X_rhoSoot, ?X_epsc, ?X_bCoag, ?X_onethird, ?X_twothird, ?X_root2,
          ?X_MW, ?X_pahMW, ?X_pahGamma.

(** one rewriting step toward [Fin _]; side conditions by sign *)
Ltac xstep :=
  match goal with
  | |- context [xadd (Fin ?a) (Fin ?b)] => change (xadd (Fin a) (Fin b)) with (Fin (a + b))
  | |- context [xsub (Fin ?a) (Fin ?b)] => change (xsub (Fin a) (Fin b)) with (Fin (a - b))
  | |- context [xmul (Fin ?a) (Fin ?b)] => change (xmul (Fin a) (Fin b)) with (Fin (a * b))
  | |- context [xopp (Fin ?a)] => change (xopp (Fin a)) with (Fin (- a))
  | |- context [xabs (Fin ?a)] => change (xabs (Fin a)) with (Fin (Rabs a))
  | |- context [xexp (Fin ?a)] => change (xexp (Fin a)) with (Fin (exp a))
  | |- context [xtanh (Fin ?a)] => change (xtanh (Fin a)) with (Fin (tanh a))
  | |- context [rlit ?z 0] => change (rlit z 0) with (IZR z)
  | |- context [rlit ?z (Zneg ?p)] =>
      let v := eval vm_compute in (Z.pow_pos 10 p) in change (rlit z (Zneg p)) with (IZR z / IZR v)
  | |- context [rlit ?z (Zpos ?p)] =>
      let v := eval vm_compute in (z * Z.pow_pos 10 p)%Z in change (rlit z (Zpos p)) with (IZR v)
  | |- context [xfin (Fin ?a)] => change (xfin (Fin a)) with true
  | |- context [xdiv (Fin ?a) (Fin ?b)] => rewrite (xdiv_fin a b) by nz
  | |- context [xsqrt (Fin ?a)] => rewrite (xsqrt_fin a) by nneg
  | |- context [xpow (Fin ?a) (Fin ?b)] => rewrite (xpow_fin a b) by pos
  | |- context [xlog (Fin ?a)] => rewrite (xlog_fin a) by pos
  | |- context [xlog10 (Fin ?a)] => rewrite (xlog10_fin a) by pos
  end.
Ltac xsimp := xcbn; xconst; repeat xstep.
