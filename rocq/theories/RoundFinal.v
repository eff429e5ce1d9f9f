(** C71 for any history, and a case meeting its hypotheses. *)
From Coq Require Import ZArith List Bool Reals Lra Lia.
From Coq.Floats Require Import SpecFloat.
From Flocq Require Import Core.
From Verif Require Import Num Defs State Nucl Growth Oxid Coag Tar SootModel Mono Calls XR F64 SpecBinomial SpecState SpecChem SpecCoag SpecValid SpecRates SpecGas SpecPsd SpecFrame SpecRound
  StateProofs NumLaws FrameMain RoundProofs RoundExpr RoundRates RoundMain RoundMono RoundCases.
Import ListNotations.
Local Open Scope R_scope.

Section Any.
Context (lm : libm) (AC : accurate lm).
Notation one := (S754_finite false 4503599627370496 (-52)).
Lemma one_between : between (/ 10 ^ 6) (10 ^ 6) one.
Proof.
  split; [split; reflexivity|]. assert (E : sfVal one = 1).
  { cbn [sfVal cond_Zopp powerRZ]. rewrite pow_IZR. change (Z.of_nat (Pos.to_nat 52)) with 52%Z. change 4503599627370496%Z with (2 ^ 52)%Z. apply Rinv_r. apply Rgt_not_eq, IZR_lt. reflexivity. }
  rewrite E. assert (1 <= 10 ^ 6) by (apply pow_R1_Rle; lra). split; [|lra]. rewrite <- Rinv_1. apply Rinv_le_contravar; lra.
Qed.
Lemma C71_nucl_ (a : args (F64 lm)) s0 s coll nu : usual a -> call s0 a = SetOk s -> gasOnly (nu_class nu) ->
  exists x, nuclRate coll nu s = Ok (x, nu, s, None) /\ agrees x (nuclFormula (nu_class nu) (gasOf a)).
Proof. intro U. exact (C71_nucl lm AC a U one one one 1 1 one_rel one_rel one_between s0 s coll nu). Qed.
Lemma C71_oxid_ (a : args (F64 lm)) s0 s o v : usual a -> call s0 a = SetOk s -> sv_psd v <> P_SECT -> ox_class o <> O_NSC_NEOH -> ox_class o <> O_HACA ->
  exists x, oxidRate o v s = Ok x /\ agrees x (oxidFormula (ox_class o) (gasOf a) (soot0 a) (soot1 a)).
Proof. intro U. exact (C71_oxid lm AC a U one one one 1 1 one_rel one_rel one_between s0 s o v). Qed.
Lemma C71_grow_ (a : args (F64 lm)) s0 s gr v : usual a -> call s0 a = SetOk s -> sv_psd v <> P_SECT -> gr_class gr <> G_HACA ->
  exists x, growRate gr v s = Ok x /\ agrees x (growFormula (gr_class gr) (gasOf a) (soot0 a) (soot1 a)).
Proof. intro U. exact (C71_grow lm AC a U one one one 1 1 one_rel one_rel one_between s0 s gr v). Qed.
Lemma C71_kern_ (a : args (F64 lm)) s0 s (c : coagObj (N:=F64 lm)) x y : usual a -> call s0 a = SetOk s -> co_class c <> C_FUCHS -> co_class c <> C_size ->
  between (/ 10 ^ 6) (10 ^ 6) (co_FM c) -> between (3 / 10 ^ 26) 1 x -> between (3 / 10 ^ 26) 1 y ->
  agrees (coagRate (N:=F64 lm) c s x y) (kernel (mkMechs N_NONE G_NONE O_NONE (co_class c) (sfVal (co_FM c))) (gasOf a) (sfVal x) (sfVal y)).
Proof.
  intros U C K1 K2 BF B1 B2. set (k := mkMechs N_NONE G_NONE O_NONE (co_class c) (sfVal (co_FM c))).
  rewrite (kern_float lm a U x y (co_FM c) (sfVal x) (sfVal y) (mass_rel x B1) (mass_rel y B2) s0 s c C K1 eq_refl).
  pose proof (kern_real lm AC a U x y (co_FM c) (sfVal x) (sfVal y) (mass_rel x B1) (mass_rel y B2) BF k K1 K2 eq_refl) as V.
  destruct (kern_an (co_class c) K1) as (v & A & K). assert (Z : true = false -> 0 < soot0 a /\ 0 < soot1 a) by discriminate.
  rewrite <- (real lm AC a U x y (co_FM c) _ _ (mass_rel x B1) (mass_rel y B2) BF true _ v _ Z A V).
  apply (sound lm AC a U x y (co_FM c) _ _ (mass_rel x B1) (mass_rel y B2) BF true _ v Z A). apply Z.leb_le in K. apply Z.leb_le. lia.
Qed.
Lemma C71_mono_ k (f : spec_float) ns nt F c (m : model (N:=F64 lm)) l g0 s0 g1 m1 s1 (a : args (F64 lm)) s eig :
  smoothMechs k -> mF k = sfVal f -> between (/ 10 ^ 6) (10 ^ 6) f ->
  constructPtr P_MONO ns (newNucl (mN k)) (newGrow (mG k)) (newOxid (mO k)) (set_FM_multiplier (newCoag (mC k)) (f : @num (F64 lm))) nt (newTar T_NONE) F c = Ok m ->
  runActions (g0, m, s0) l = Ok (g1, m1, s1) -> absc s1 <> [] -> wts s1 <> [] ->
  usual a -> 0 < soot0 a -> 3 / 10 ^ 26 <= soot1 a / soot0 a <= 1 -> call s1 a = SetOk s ->
  let g := gasOf a in let area := soot0 a * sphere (soot1 a / soot0 a) in
  let J := Jnuc k g in let kg := kgrow k g (soot0 a) (soot1 a) in let ko := koxid k g (soot0 a) (soot1 a) in
  exists m2 s2 q0 q1 gs, setSourceTerms g1 eig m1 s = Ok (g1, m2, s2) /\ sootSources (sm_sources m2) = [q0; q1] /\ gasSources (sm_sources m2) = gs /\ length gs = 11%nat /\
    agreesSum q0 [J; - (1 / 2 * kernel k g (soot1 a / soot0 a) (soot1 a / soot0 a) * soot0 a ^ 2)] /\
    agreesSum q1 [J * nucMass g; kg * area; - (ko * area)] /\
    forall sp, agreesSum (nth (gasIdx sp) gs (S754_zero false)) [nuclGas (mN k) (J * nucMass g) sp; growGas (mG k) (kg * area) sp; oxidGas (mO k) (ko * area) sp].
Proof.
  intros SM EF BF CO RU NA NW U P0 BM C g area J kg ko.
  assert (KM : keepsModel m m1) by (apply (C60_config_ l g0 m s0 g1 m1 s1); [right; do 10 eexists; exact CO|exact RU]).
  unfold constructPtr, build in CO. destruct (derivedCheck _ _ _ _) in CO; try discriminate CO. cbn [bind] in CO. injection CO as CO. subst m.
  destruct KM as (K1 & _ & _ & K2 & K3 & K4 & K5 & _ & _ & _ & _ & _ & K6 & _). cbn [sm_psd sm_grow sm_oxid sm_coag sm_tar sm_nucl nu_class newNucl] in *.
  assert (H : holdsM lm k f m1). { repeat split; try assumption. apply K6. apply SM. }
  assert (NU : call s1 a <> SetUB) by (rewrite C; discriminate).
  destruct (proj1 (proj2 (C01_accepts (N:=F64 lm) (F64_cmpLaws lm) s1 a NU)) s C) as (_ & _ & _ & _ & _ & _ & _ & _ & _ & _ & _ & _ & SR).
  assert (AW : absc s <> [] /\ wts s <> []). { destruct SR as (E1 & E2 & _). rewrite E1, E2. auto. }
  exact (mono_sums lm AC a U k f SM EF BF P0 BM s1 s m1 g1 eig C H (proj1 AW) (proj2 AW)).
Qed.
End Any.

(** ** arguments meeting the hypotheses *)
Definition pw (n : Z) : spec_float := S754_finite false 4503599627370496 (n - 52).
Lemma pw_val n : sfVal (pw n) = bpow radix2 n.
Proof.
  unfold pw. cbn [sfVal cond_Zopp]. rewrite <- (bpow_powerRZ radix2). change (IZR 4503599627370496) with (bpow radix2 52). rewrite <- bpow_plus. f_equal. lia.
Qed.
Section Demo.
Context (lm : libm).
Definition demoA : args (F64 lm) :=
  mkArgs (N:=F64 lm) (pw 11) (pw 17) (pw (-3)) (pw (-14))
    [pw (-5); pw (-12); pw (-10); pw (-14); pw (-9); pw (-4); pw (-3); pw (-6); pw (-8); S754_zero false; pw (-4)] (repeat (S754_zero false) 6)
    [pw 50; pw (-10)] 2 [] 0 (pw 6).
Lemma pw_between lo hi n : (-500 <=? n)%Z && (n <=? 500)%Z = true -> lo <= bpow radix2 n -> bpow radix2 n <= hi -> between lo hi (pw n).
Proof.
  intros N L H. rewrite andb_true_iff, !Z.leb_le in N. split; [|rewrite pw_val; lra]. unfold pw. split; [|reflexivity]. unfold valid_binary, bounded, canonical_mantissa. apply andb_true_iff. split; [|apply Z.leb_le; cbn; lia].
  apply (proj1 (Zeq_is_eq_bool _ _)). change (digits2_pos 4503599627370496) with 53%positive. unfold fexp, emin, prec64, emax64. lia.
Qed.
Lemma demo_usual : usual demoA.
Proof.
  assert (D6 : 10 ^ 6 = 1000000) by lra. assert (D8 : 10 ^ 8 = 100000000) by lra. assert (D9 : 10 ^ 9 = 1000000000) by lra.
  assert (I30 : / 10 ^ 30 <= bpow radix2 (-14)).
  { change (bpow radix2 (-14)) with (/ 16384). apply Rinv_le_contravar; [lra|]. rewrite pow_IZR. apply IZR_le, Z.leb_le. vm_compute. reflexivity. }
  assert (Y : forall n, (-14 <= n <= 0)%Z -> zeroOr (/ 10 ^ 30) 1 (pw n)).
  { intros n N. assert (B : between (/ 10 ^ 30) 1 (pw n)).
    { apply pw_between; [rewrite andb_true_iff, !Z.leb_le; lia|apply Rle_trans with (bpow radix2 (-14)); [exact I30|apply bpow_le; lia]|change 1 with (bpow radix2 0); apply bpow_le; lia]. }
    destruct B as [D B]. split; [exact D|right; exact B]. }
  assert (Z0 : forall lo hi, zeroOr lo hi (S754_zero false)) by (intros; split; [split; reflexivity|left; reflexivity]).
  assert (B10 : bpow radix2 (-10) = / 1024) by reflexivity. assert (B50 : bpow radix2 50 = 1125899906842624) by reflexivity.
  unfold usual, demoA. cbn [aT aP arho amu acMin ayGas ayPah asoot].
  split; [apply pw_between; [reflexivity|change (bpow radix2 11) with 2048; lra..]|].
  split; [apply pw_between; [reflexivity|change (bpow radix2 17) with 131072; lra..]|].
  split; [apply pw_between; [reflexivity|change (bpow radix2 (-3)) with (/ 8); lra..]|].
  split; [apply pw_between; [reflexivity|change (bpow radix2 (-14)) with (/ 16384); lra..]|].
  split; [apply pw_between; [reflexivity|change (bpow radix2 6) with 64; lra..]|].
  split; [reflexivity|]. split; [|split; [reflexivity|split; [|split; [cbn; lia|]]]].
  - intros y I. cbn [In] in I. repeat destruct I as [<-|I]; try contradiction; try apply Z0; apply Y; lia.
  - intros y I. apply repeat_spec in I. subst y. apply Z0.
  - assert (T30 : 1125899906842624 <= 10 ^ 30). { rewrite pow_IZR. apply IZR_le, Z.leb_le. vm_compute. reflexivity. }
    assert (J30 : / 10 ^ 30 <= / 1024). { apply Rinv_le_contravar; lra. }
    assert (K : forall n, (-10 <= n <= 50)%Z -> zeroOr (/ 10 ^ 30) (10 ^ 30) (pw n)).
    { intros n N. assert (B : between (/ 10 ^ 30) (10 ^ 30) (pw n)).
      { apply pw_between; [rewrite andb_true_iff, !Z.leb_le; lia|apply Rle_trans with (bpow radix2 (-10)); [lra|apply bpow_le; lia]|apply Rle_trans with (bpow radix2 50); [apply bpow_le; lia|lra]]. }
      destruct B as [D B]. split; [exact D|right; exact B]. }
    intros y I. cbn [In] in I. destruct I as [<-|[<-|[]]]; apply K; lia.
Qed.
Lemma demo_mass : 0 < soot0 demoA /\ 3 / 10 ^ 26 <= soot1 demoA / soot0 demoA <= 1.
Proof.
  unfold soot0, soot1, demoA. cbn [asoot nth]. rewrite !pw_val. split; [apply bpow_gt_0|]. unfold Rdiv. rewrite <- bpow_opp, <- bpow_plus.
  change (-10 + - (50))%Z with (- (60))%Z. rewrite bpow_opp. change (bpow radix2 60) with (IZR (2 ^ 60)). split.
  - apply (Rmult_le_reg_r (10 ^ 26)); [apply pow_lt; lra|]. rewrite Rmult_assoc, Rinv_l, Rmult_1_r by (apply pow_nonzero; lra). apply (Rmult_le_reg_l (IZR (2 ^ 60))); [apply IZR_lt; reflexivity|].
    rewrite <- Rmult_assoc, Rinv_r, Rmult_1_l by (apply Rgt_not_eq, IZR_lt; reflexivity). rewrite pow_IZR, <- mult_IZR. apply IZR_le, Z.leb_le. vm_compute. reflexivity.
  - rewrite <- Rinv_1. apply Rinv_le_contravar; [lra|apply IZR_le; lia].
Qed.
Lemma demo_accepted : exists s, call (newState (N:=F64 lm) 2 0) demoA = SetOk s.
Proof.
  assert (E : match call (newState (N:=F64 lm) 2 0) demoA with SetOk _ => true | _ => false end = true) by (vm_compute; reflexivity).
  destruct (call (newState (N:=F64 lm) 2 0) demoA); try discriminate E. eauto.
Qed.
End Demo.
Lemma C71_arguments_ lm : exists (a : args (F64 lm)) s, usual a /\ 0 < soot0 a /\ 3 / 10 ^ 26 <= soot1 a / soot0 a <= 1 /\
  call (newState (N:=F64 lm) 2 0) a = SetOk s /\ absc s <> [] /\ wts s <> [].
Proof.
  destruct (demo_accepted lm) as (s & C). exists (demoA lm), s. destruct (demo_mass lm) as [M1 M2]. split; [apply demo_usual|]. split; [exact M1|]. split; [exact M2|]. split; [exact C|].
  assert (NU : call (newState (N:=F64 lm) 2 0) (demoA lm) <> SetUB) by (rewrite C; discriminate).
  destruct (proj1 (proj2 (C01_accepts (N:=F64 lm) (F64_cmpLaws lm) _ _ NU)) s C) as (_ & _ & _ & _ & _ & _ & _ & _ & _ & _ & _ & _ & (E1 & E2 & _)).
  rewrite E1, E2. split; discriminate.
Qed.
Lemma C71_mechanisms_ : exists k f, smoothMechs k /\ mF k = sfVal f /\ between (/ 10 ^ 6) (10 ^ 6) f /\
  mN k = N_LIN /\ mG k = G_LL /\ mO k = O_LEE_NEOH /\ mC k = C_HM /\
  forall lm, exists m : model (N:=F64 lm), constructPtr P_MONO 2 (newNucl (mN k)) (newGrow (mG k)) (newOxid (mO k)) (set_FM_multiplier (newCoag (mC k)) (f : @num (F64 lm))) 0 (newTar T_NONE) (nZ 2) 100 = Ok m.
Proof.
  exists (mkMechs N_LIN G_LL O_LEE_NEOH C_HM (sfVal (pw 1))), (pw 1). cbn [mN mG mO mC mF]. split; [repeat split; discriminate|]. split; [reflexivity|].
  split; [|repeat split; intro lm; eexists; reflexivity]. assert (1 <= 10 ^ 6) by (apply pow_R1_Rle; lra). apply pw_between; [reflexivity|change (bpow radix2 1) with 2|change (bpow radix2 1) with 2; lra].
  apply Rle_trans with 1; [|lra]. rewrite <- Rinv_1. apply Rinv_le_contravar; lra.
Qed.
