(** Signs of the rates, kernels and monodisperse sources in IEEE arithmetic: lemmas of C72. *)
From Coq Require Import ZArith List Bool Lia.
From Coq.Floats Require Import SpecFloat.
From Verif Require Import Num Defs State Coag Nucl Growth Oxid Tar SootModel Mono F64 SpecState SpecIeee StateProofs NumLaws IeeeProofs.
Import ListNotations.

Section Signs.
Context (lm : libm) (HS : sane lm).
#[local] Existing Instance F64 | 0.
Notation FN := (F64 lm).

Definition okS (s : state (N:=FN)) : Prop :=
  (unsigned (T s) /\ unsigned (P s) /\ unsigned (rhoGas s) /\ unsigned (muGas s) /\ unsigned (cMin s) /\ unsigned (MWGas s)) /\
  (double (P s) /\ double (MWGas s)) /\
  (forall y, In y (yGas s) -> double y /\ nneg y) /\ (forall y, In y (yPah s) -> nneg y) /\
  (forall x, In x (tarVar s) -> nneg x) /\ (forall x, In x (sootVar s) -> nneg x).

Lemma un_exp x : unsigned (lm_exp lm x). Proof. apply HS. Qed.
Lemma un_pow x y : unsigned x -> unsigned (lm_pow lm x y). Proof. apply HS. Qed.
Lemma nn_pow x y : nneg x -> aboveZero y -> nneg (lm_pow lm x y).
Proof.
  intros A B. destruct (nneg_cases _ A) as [U| ->]; [apply un_nn, un_pow, U|].
  destruct (sane_zero lm HS true y B) as [b E]. rewrite E. exact I.
Qed.

Lemma clip_nn n v w : isClipped (N:=FN) n v w -> existsb (fun x => SFltb x (nZ (N:=FN) 0)) w = false -> forall x, In x w -> nneg x.
Proof.
  intros _ E x Hx. apply neg_iff. intros L. assert (existsb (fun x => SFltb x (nZ (N:=FN) 0)) w = true); [|congruence].
  apply existsb_exists. exists x. split; [exact Hx|]. exact L.
Qed.
Lemma after_set (s0 s : state (N:=FN)) (a : args FN) : call s0 a = SetOk s -> anyDoubles a -> okS s.
Proof.
  intros E [DT [DP [DR DY]]]. assert (NU : call s0 a <> SetUB) by congruence.
  destruct (C01_accepts (F64_cmpLaws lm) s0 a NU) as [A [B _]].
  pose proof (proj1 A (ex_intro _ s E)) as Acc. pose proof (B s E) as St. clear A B.
  destruct St as (ET & EP & ER & EM & EC & EW & _ & CS & _ & CT & EY & EPh & _).
  assert (UT : unsigned (aT a)). { apply above_un. apply not_true_is_false. refine (Acc EDomT _ _). unfold checks. repeat (try (left; reflexivity); right). }
  assert (UP : unsigned (aP a)). { apply above_un. apply not_true_is_false. refine (Acc EDomP _ _). unfold checks. repeat (try (left; reflexivity); right). }
  assert (UR : unsigned (arho a)). { apply above_un. apply not_true_is_false. refine (Acc EDomRho _ _). unfold checks. repeat (try (left; reflexivity); right). }
  assert (UM : unsigned (amu a)). { apply above_un. apply not_true_is_false. refine (Acc EDomMu _ _). unfold checks. repeat (try (left; reflexivity); right). }
  assert (UC : unsigned (acMin a)). { apply above_un. apply not_true_is_false. refine (Acc EDomCMin _ _). unfold checks. repeat (try (left; reflexivity); right). }
  assert (RG : unsigned (@Rg FN) /\ double (@Rg FN)) by (split; vm_compute; reflexivity).
  unfold okS. rewrite ET, EP, ER, EM, EC, EW, EY, EPh. repeat split; auto.
  - apply div_un; [|assumption]. apply mul_un; [|assumption]. apply mul_un; [assumption|apply RG].
  - apply div_dbl; [|assumption]. apply mul_dbl; [|assumption]. apply mul_dbl; [assumption|apply RG].
  - apply DY, H.
  - apply neg_iff, DY, H.
  - intros y Hy. apply neg_iff. intros L. apply (Acc EDomPah _ ltac:(cbn; do 9 right; left; reflexivity)). exists y. split; [exact Hy|]. left. exact L.
  - intros x Hx. apply neg_iff. intros L. destruct CT as [Len CT]. apply In_nth_error in Hx. destruct Hx as [i Hi].
    destruct (nth_error (atar a) i) as [v|] eqn:Ev; [|apply nth_error_None in Ev; assert (nth_error (tarVar s) i <> None) by congruence; apply nth_error_Some in H; lia].
    pose proof (CT i v Ev) as C. rewrite Hi in C. injection C as C.
    destruct ((Z.of_nat i <? st_Ntar s0)%Z) eqn:En; cbn [andb] in C.
    + destruct (SFltb v (S754_zero false)) eqn:Lv; subst x; [discriminate L|]. unfold negative in L. congruence.
    + subst x. apply (Acc EDomTar _ ltac:(cbn; do 6 right; left; reflexivity)). exists i, v. repeat split; [exact Ev|apply Z.ltb_ge; exact En|exact L].
  - intros x Hx. apply neg_iff. intros L. destruct CS as [Len CT']. apply In_nth_error in Hx. destruct Hx as [i Hi].
    destruct (nth_error (asoot a) i) as [v|] eqn:Ev; [|apply nth_error_None in Ev; assert (nth_error (sootVar s) i <> None) by congruence; apply nth_error_Some in H; lia].
    pose proof (CT' i v Ev) as C. rewrite Hi in C. injection C as C.
    destruct ((Z.of_nat i <? st_nsoot s0)%Z) eqn:En; cbn [andb] in C.
    + destruct (SFltb v (S754_zero false)) eqn:Lv; subst x; [discriminate L|]. unfold negative in L. congruence.
    + subst x. apply (Acc EDomSoot _ ltac:(cbn; do 5 right; left; reflexivity)). exists i, v. repeat split; [exact Ev|apply Z.ltb_ge; exact En|exact L].
Qed.

Definition all {A} (Q : A -> Prop) (r : res A) : Prop := forall x, r = Ok x -> Q x.
Lemma all_ok {A} (Q : A -> Prop) x : Q x -> all Q (Ok x).
Proof. intros H y E. injection E as <-. exact H. Qed.
Lemma all_bind {A C} (R : A -> Prop) (Q : C -> Prop) r f : all R r -> (forall x, R x -> all Q (f x)) -> all Q (bind r f).
Proof. intros H K. destruct r as [x| |]; cbn; intros y E; [|discriminate E|discriminate E]. exact (K x (H x eq_refl) y E). Qed.
Lemma all_any {A} (r : res A) : all (fun _ => True) r.
Proof. intros x _. exact I. Qed.
Lemma vget_in {A} (l : list A) i x : vget l i = Ok x -> In x l.
Proof. unfold vget. destruct (nth_error l i) eqn:E; [|discriminate]. intros H. injection H as <-. exact (nth_error_In _ _ E). Qed.

Ltac norm := unfold nZ, nn; cbn [nmul nadd ndiv nsub nsqrt nexp npow nlit nopp nabs neqb num F64].
(** decide signs by the shape of the term *)
Ltac sg :=
  lazymatch goal with
  | |- True => exact I
  | H : nneg ?x |- nneg ?x => exact H
  | |- nneg (?a *. ?b *. ?b) => first [apply mul2_nn; sg | apply mul_nn; sg]
  | |- nneg (?a *. ?a) => apply sq_nn
  | |- nneg (_ *. _) => apply mul_nn; sg
  | |- nneg (_ /. _) => apply div_nn; sg
  | |- nneg (_ +. _) => apply add_nn; sg
  | |- nneg (rt _) => apply rt_nn
  | |- nneg (SFabs _) => apply abs_nn
  | |- nneg (lm_exp _ _) => apply un_nn, un_exp
  | |- nneg (lm_pow _ _ _) => first [apply un_nn, un_pow; sg | apply nn_pow; [sg|vm_compute; reflexivity]]
  | |- unsigned (_ *. _) => apply mul_un; sg
  | |- unsigned (_ /. _) => apply div_un; sg
  | |- unsigned (_ +. _) => first [apply add_un; sg | apply add_un'; sg]
  | |- unsigned (rt _) => apply rt_un; sg
  | |- unsigned (lm_exp _ _) => apply un_exp
  | |- unsigned (lm_pow _ _ _) => apply un_pow; sg
  | |- unsigned ?x => first [assumption | is_var x; fail 1 | vm_compute; reflexivity]
  | |- nneg ?x => first [assumption | apply un_nn; assumption | vm_compute; reflexivity]
  end.

Section Rates.
Context (s : state (N:=FN)) (HO : okS s).
Lemma uT : unsigned (T s). Proof. apply HO. Qed.
Lemma uP : unsigned (P s). Proof. apply HO. Qed.
Lemma uR : unsigned (rhoGas s). Proof. apply HO. Qed.
Lemma uM : unsigned (muGas s). Proof. apply HO. Qed.
Lemma uC : unsigned (cMin s). Proof. apply HO. Qed.
Lemma uW : unsigned (MWGas s). Proof. apply HO. Qed.
Lemma dP : double (P s). Proof. destruct HO as (_ & H & _). apply H. Qed.
Lemma dW : double (MWGas s). Proof. destruct HO as (_ & H & _). apply H. Qed.
Ltac facts := pose proof uT; pose proof uP; pose proof uR; pose proof uM; pose proof uC; pose proof uW.
Lemma mw sp : unsigned (MWof (N:=FN) sp) /\ double (MWof (N:=FN) sp).
Proof. destruct sp; split; vm_compute; reflexivity. Qed.
Lemma conc_nn sp : all nneg (getGasSpC s sp).
Proof.
  unfold getGasSpC. apply all_bind with (R := nneg).
  - intros y E. apply vget_in in E. destruct HO as (_ & _ & Y & _). apply Y, E.
  - intros y Hy. apply all_ok. norm. pose proof (proj1 (mw sp)). facts. sg.
Qed.
Lemma press_nn sp : all (fun p => nneg p /\ double p) (getGasSpP s sp).
Proof.
  unfold getGasSpP. apply all_bind with (R := fun y => nneg y /\ double y).
  - intros y E. apply vget_in in E. destruct HO as (_ & _ & Y & _). destruct (Y y E). auto.
  - intros y [Hy Dy]. apply all_ok. norm. pose proof (proj1 (mw sp)). facts. split; [sg|].
    apply mul_dbl; [apply div_dbl; [apply mul_dbl; [exact Dy|apply dW]|apply mw]|apply dP].
Qed.
Ltac rate := norm; facts; sg.
Ltac useC sp := apply all_bind with (R := nneg); [apply conc_nn|intros ?c ?Hc].
Ltac useP sp := apply all_bind with (R := fun p => nneg p /\ double p); [apply press_nn|intros ?p [?Hp ?Dp]].

Lemma neoh_nn eff : unsigned eff -> all nneg (neohOH (N:=FN) eff s).
Proof. intros He. unfold neohOH. useC OH. apply all_ok. rate. Qed.
Lemma one_lit : f64lit 1 0 = one. Proof. vm_compute. reflexivity. Qed.
Lemma nsc_nn : all nneg (oxidNSC_NEOH s).
Proof.
  unfold oxidNSC_NEOH. useP O2. useP OH. apply all_ok. norm. facts. rewrite one_lit.
  set (e1 := lm_exp lm (f64lit (-15098) 0 /. T s)). set (e2 := lm_exp lm (f64lit (-7650) 0 /. T s)).
  set (e3 := lm_exp lm (f64lit (-48817) 0 /. T s)). set (e4 := lm_exp lm (f64lit 2063 0 /. T s)).
  destruct (sane_exp lm HS (f64lit (-15098) 0 /. T s)) as [D1 U1]. destruct (sane_exp lm HS (f64lit (-7650) 0 /. T s)) as [D2 U2].
  destruct (sane_exp lm HS (f64lit (-48817) 0 /. T s)) as [D3 U3]. destruct (sane_exp lm HS (f64lit 2063 0 /. T s)) as [D4 U4].
  fold e1 e2 e3 e4 in D1, D2, D3, D4, U1, U2, U3, U4. clearbody e1 e2 e3 e4.
  assert (Dp' : double (p /. f64lit 101325 0)) by (apply div_dbl; [exact Dp|vm_compute; reflexivity]).
  assert (Hp' : nneg (p /. f64lit 101325 0)) by sg. set (q := p /. f64lit 101325 0) in * . clearbody q.
  assert (M : nneg ((f64lit 20 0 *. e1 *. q *. (one /. (one +. f64lit 151 3 *. e3 /. (f64lit 446 (-5) *. e2 *. q))) /. (one +. f64lit 213 (-1) *. e4 *. q)
     +. f64lit 446 (-5) *. e2 *. q *. (one -. one /. (one +. f64lit 151 3 *. e3 /. (f64lit 446 (-5) *. e2 *. q)))))).
  { destruct (nneg_cases _ Hp') as [U| ->].
    - destruct (one_minus (f64lit 151 3 *. e3 /. (f64lit 446 (-5) *. e2 *. q))) as [M1 M2].
      + apply div_dbl; [|apply mul_dbl; [|assumption]]; (apply mul_dbl; [vm_compute; reflexivity|assumption]).
      + sg.
      + set (x := one /. _) in * . set (z := one -. x) in * . clearbody z. clearbody x. sg.
    - clear - U1 U2 U3 U4. assert (K : unsigned (f64lit 151 3 *. e3)) by sg. assert (L : unsigned (f64lit 446 (-5) *. e2)) by sg.
      assert (A : unsigned (f64lit 20 0 *. e1)) by sg. assert (Z : unsigned (f64lit 213 (-1) *. e4)) by sg.
      set (k := f64lit 151 3 *. e3) in * . set (b := f64lit 446 (-5) *. e2) in * . set (a := f64lit 20 0 *. e1) in * . set (z := f64lit 213 (-1) *. e4) in * .
      clearbody k b a z. destruct k as [[]|[]| |[] ? ?]; try discriminate K; destruct b as [[]|[]| |[] ? ?]; try discriminate L;
        try (cbn; exact I); destruct a as [[]|[]| |[] ? ?]; try discriminate A; destruct z as [[]|[]| |[] ? ?]; try discriminate Z; vm_compute; auto. }
  sg.
Qed.

Lemma grow_pos M0 M1 : SFltb (S754_zero false) (growArea (N:=FN) M0 M1) = true -> unsigned (growArea (N:=FN) M0 M1).
Proof. apply gt_un. Qed.
Lemma eq_un x : nneg x -> SFeqb x (S754_zero false) = false -> unsigned x.
Proof. destruct x as [[]|[]| |[] ? ?]; cbn; auto; intros; discriminate. Qed.
Lemma alpha_nn M0 M1 : nneg (hacaAlpha (N:=FN) s M0 M1).
Proof.
  unfold hacaAlpha. cbv zeta. match goal with |- context [nltb ?t (nZ 0)] => lazymatch t with M0 => fail | _ => generalize t end end. intros a. destruct (nltb a (nZ 0)) eqn:E; [vm_compute; reflexivity|].
  apply neg_iff. intros L. unfold negative in L. change (nltb (Num:=FN) a (nZ 0) = true) in L. congruence.
Qed.
Lemma sites_nn : all (fun f => nneg (fst (fst f)) /\ nneg (snd (fst f)) /\ nneg (snd f)) (hacaSites s).
Proof.
  unfold hacaSites. useC H_. useC H2. useC OH. useC H2O. useC C2H2. useC O2. apply all_ok. cbn [fst snd].
  norm. facts. split; [sg|]. split; [sg|].
  set (d := _ +. _ +. _ +. _ +. _). destruct (SFeqb d (f64lit 0 0)) eqn:E; [vm_compute; reflexivity|].
  assert (D : unsigned d). { apply eq_un; [|exact E]. unfold d. sg. }
  clearbody d. sg.
Qed.
Lemma grow_nn (g : growObj (N:=FN)) v : all nneg (growRate g v s).
Proof.
  unfold growRate. destruct (gr_class g).
  - apply all_ok. vm_compute. reflexivity.
  - unfold growLL. apply all_bind with (R := fun _ => True); [apply all_any|]. intros [M0 M1] _.
    destruct (nltb (nZ 0) (growArea M0 M1)) eqn:E; [|apply all_ok; vm_compute; reflexivity].
    assert (unsigned (growArea (N:=FN) M0 M1)) by (apply grow_pos, E). set (A := growArea M0 M1) in * . clearbody A.
    useC C2H2. apply all_ok. rate.
  - unfold growLIN. useC C2H2. apply all_ok. rate.
  - unfold growHACA. apply all_bind with (R := fun _ => True); [apply all_any|]. intros [M0 M1] _.
    apply all_bind with (1 := sites_nn). intros [[f4 f5] chi]. cbn [fst snd]. intros [A [B C]]. pose proof (alpha_nn M0 M1) as AL.
    apply all_ok. set (al := hacaAlpha s M0 M1) in * . clearbody al. rate.
  - unfold growMB. apply all_bind with (R := fun _ => True); [apply all_any|]. intros [M0 M1] _.
    destruct (nltb (nZ 0) (growArea M0 M1)) eqn:E; [|apply all_ok; vm_compute; reflexivity].
    useC C2H2. apply all_ok. rate.
  - unfold growFAIR. apply all_bind with (R := fun _ => True); [apply all_any|]. intros [M0 M1] _.
    destruct (nltb (nZ 0) (growArea M0 M1)) eqn:E; [|apply all_ok; vm_compute; reflexivity].
    useC C2H2. apply all_ok. rate.
  - apply all_ok. vm_compute. reflexivity.
Qed.
Lemma oxid_nn (o : oxidObj (N:=FN)) v : all nneg (oxidRate o v s).
Proof.
  unfold oxidRate. destruct (ox_class o); try (apply all_ok; vm_compute; reflexivity).
  - unfold oxidLL. useC O2. apply all_ok. rate.
  - unfold oxidLEE_NEOH. useP O2. apply all_bind with (R := nneg); [apply neoh_nn; vm_compute; reflexivity|]. intros r Hr. apply all_ok. rate.
  - unfold oxidMB. apply all_bind with (R := fun _ => True); [apply all_any|]. intros _ _. useC OH. apply all_ok. rate.
  - unfold oxidFAIR. useC O2. apply all_ok. rate.
  - exact nsc_nn.
  - unfold oxidHACA. apply all_bind with (R := fun _ => True); [apply all_any|]. intros [M0 M1] _.
    apply all_bind with (1 := sites_nn). intros [[f4 f5] chi]. cbn [fst snd]. intros [A [B C]]. pose proof (alpha_nn M0 M1) as AL.
    apply all_bind with (R := nneg); [apply neoh_nn; vm_compute; reflexivity|]. intros r Hr.
    apply all_ok. set (al := hacaAlpha s M0 M1) in * . clearbody al. rate.
  - unfold oxidAJ_RED. useP O2. useP OH. apply all_ok. rate.
  - unfold oxidBROWN. useP O2. apply all_ok. rate.
  - unfold oxidOPTJ. useP O2. apply all_bind with (R := nneg); [apply neoh_nn; vm_compute; reflexivity|]. intros r Hr. apply all_ok. rate.
  - unfold oxidOPTG. useP O2. apply all_bind with (R := nneg); [apply neoh_nn; vm_compute; reflexivity|]. intros r Hr. apply all_ok. rate.
Qed.
Lemma tar_nn i : all nneg (vget (tarVar s) i).
Proof. intros x E. apply vget_in in E. destruct HO as (_ & _ & _ & _ & Y & _). exact (Y x E). Qed.

(** kernels *)
Lemma small_un m1 m2 : tooSmall (N:=FN) m1 m2 = false -> unsigned m1 /\ unsigned m2.
Proof. unfold tooSmall. intros H. apply orb_false_iff in H. destruct H. split; apply big_un; assumption. Qed.
Lemma mfp_un : unsigned (getGasMeanFreePath s).
Proof. unfold getGasMeanFreePath. rate. Qed.
Lemma coag_nn (c : coagObj (N:=FN)) m1 m2 : unsigned (co_FM c) -> nneg (coagRate c s m1 m2).
Proof.
  intros F. unfold coagRate. pose proof mfp_un as L. destruct (co_class c).
  - vm_compute; reflexivity.
  - unfold kernelFM. destruct (tooSmall m1 m2) eqn:E; [vm_compute; reflexivity|]. destruct (small_un _ _ E). unfold getKfm. rate.
  - unfold kernelCONT. destruct (tooSmall m1 m2) eqn:E; [vm_compute; reflexivity|]. destruct (small_un _ _ E). unfold getKc.
    set (l := getGasMeanFreePath s) in * . clearbody l. rate.
  - unfold kernelHM. destruct (tooSmall m1 m2) eqn:E; [vm_compute; reflexivity|]. destruct (small_un _ _ E).
    set (l := getGasMeanFreePath s) in * . clearbody l. rate.
  - unfold kernelFUCHS. destruct (tooSmall m1 m2) eqn:E; [vm_compute; reflexivity|]. destruct (small_un _ _ E).
    set (l := getGasMeanFreePath s) in * . clearbody l. norm. facts.
    apply div_nn; [sg|]. apply add_un; [|sg].
    apply div_nn; [sg|]. apply add_un'; [sg|]. sg.
  - vm_compute; reflexivity.
Qed.

(** nucleation *)
Lemma sq_un x : unsigned (x *. x).
Proof. destruct x as [[]|[]| |[] ? ?]; cbn; auto using aux_un. Qed.
Lemma nucl_plain (nu : nuclObj (N:=FN)) (coll : state (N:=FN) -> @num FN -> res (@num FN * list (@num FN))) : nu_class nu <> N_PAH -> all (fun r => nneg (fst (fst (fst r))) /\ snd (fst (fst r)) = nu /\ snd (fst r) = s) (nuclRate coll nu s).
Proof.
  intros K. unfold nuclRate. destruct (nu_class nu); try contradiction; try (apply all_ok; cbn [fst snd]; split; [vm_compute; reflexivity|auto]);
    (apply all_bind with (R := nneg); [|intros x Hx; apply all_ok; cbn [fst snd]; auto]).
  - unfold nuclLL. useC C2H2. apply all_ok. rate.
  - unfold nuclLIN. useC C2H2. apply all_ok. rate.
  - unfold nuclLINA1. useC C6H6. apply all_ok. rate.
  - unfold nuclMB. useC C2H2. apply all_ok. rate.
  - unfold nuclFAIR. useC C2H2. apply all_ok. rate.
  - unfold nuclAJ_RED. apply all_bind with (1 := tar_nn 0). intros t0 Ht. apply all_ok. rate.
  - unfold nuclBROWN. apply all_bind with (1 := tar_nn 0). intros t0 Ht. apply all_ok. rate.
Qed.
Lemma pre_un : unsigned (pahPreFac s).
Proof. unfold pahPreFac. rate. Qed.
Lemma ndot_nn sp : all nneg (pahNdot s sp).
Proof.
  unfold pahNdot. apply all_bind with (R := nneg).
  - intros y E. apply vget_in in E. destruct HO as (_ & _ & _ & Y & _). exact (Y y E).
  - intros y Hy. apply all_ok. pose proof pre_un as Pu. norm. set (pf := pahPreFac s) in * . clearbody pf.
    apply mul2_nn. apply mul_nn; [apply mul_nn; [destruct sp; vm_compute; reflexivity|sg]|].
    apply un_nn, un_pow. destruct sp; vm_compute; reflexivity.
Qed.
Definition accOk (a : pahAcc (N:=FN)) : Prop := unsigned (a_nDotD a) /\ unsigned (a_mDimer a) /\ unsigned (a_cMin a).
Lemma fold_ok l : forall a, accOk a -> all accOk (foldM (pahStep s) l a).
Proof.
  induction l as [|sp l IH]; intros a Ha; cbn [foldM]; [apply all_ok, Ha|].
  apply all_bind with (R := accOk); [|exact IH]. unfold pahStep. apply all_bind with (1 := ndot_nn sp). intros nd Hn. apply all_ok.
  destruct Ha as (A & B & C). unfold accOk. cbn [a_nDotD a_mDimer a_cMin]. norm.
  assert (unsigned (f64lit (pahNC sp) 0)) by (destruct sp; vm_compute; reflexivity).
  repeat split; (apply add_un'; [assumption|sg]).
Qed.
Lemma okS_cMin c : unsigned c -> okS (with_cMin s c).
Proof. intros U. destruct HO as (H & H'). destruct H as (? & ? & ? & ? & ? & ?). split; [|exact H']. repeat split; assumption. Qed.

Lemma nucl_pah (nu : nuclObj (N:=FN)) (coll : state (N:=FN) -> @num FN -> res (@num FN * list (@num FN))) : (forall s' m, okS s' -> unsigned m -> all (fun r => nneg (fst r)) (coll s' m)) ->
  all (fun r => nneg (fst (fst (fst r))) /\ (unsigned (mDimer (N:=FN) (snd (fst (fst r)))) /\ nneg (nDimer (N:=FN) (snd (fst (fst r)))) /\ nu_class (N:=FN) (snd (fst (fst r))) = nu_class nu /\ nu_mech (N:=FN) (snd (fst (fst r))) = nu_mech nu) /\ okS (snd (fst r)) /\
     sootVar (snd (fst r)) = sootVar s /\ wts (snd (fst r)) = wts s /\ absc (snd (fst r)) = absc s) (nuclPAH coll nu s).
Proof.
  intros HC. unfold nuclPAH. apply all_bind with (R := accOk).
  { apply fold_ok. pose proof uC. repeat split; cbn [a_nDotD a_mDimer a_cMin]; try assumption; vm_compute; reflexivity. }
  intros a (A & B & C). cbv zeta.
  set (pos := nltb (nZ 0) (a_nDotD a)).
  assert (P : pos = true -> unsigned (f64lit 2 0 *. a_nDotD a)) by (intros _; sg).
  set (mD := if pos then ndiv (a_mDimer a) _ else _). set (cM := if pos then ndiv (a_cMin a) _ else _).
  assert (UM : unsigned mD) by (unfold mD; destruct pos; [apply div_un; [assumption|apply P; reflexivity]|assumption]).
  assert (UC : unsigned cM) by (unfold cM; destruct pos; [apply div_un; [assumption|apply P; reflexivity]|assumption]).
  pose proof (okS_cMin cM UC) as OK'. clearbody cM. clearbody mD.
  apply all_bind with (1 := HC _ _ OK' UM). intros [Ib eff] HI. cbn [fst] in HI. apply all_ok. cbn [fst snd mDimer nDimer nu_class nu_mech sootVar wts absc with_cMin].
  change (pahPreFac (with_cMin s cM)) with (pahPreFac s). pose proof pre_un as PU. norm. set (pf := pahPreFac s) in * . clearbody pf.
  split; [|split; [|split; [exact OK'|auto]]].
  - apply mul2_nn. sg.
  - split; [exact UM|]. split; [|auto]. destruct (pos && _); [|vm_compute; reflexivity].
    apply div_nn; [sg|]. apply add_un; [exact HI|]. apply rt_un. apply add_un'; [apply sq_un|sg].
Qed.
Lemma nucl_any (nu : nuclObj (N:=FN)) (coll : state (N:=FN) -> @num FN -> res (@num FN * list (@num FN))) : all (fun r => nneg (fst (fst (fst r)))) (nuclRate coll nu s).
Proof.
  assert (K : nu_class nu = N_PAH \/ nu_class nu <> N_PAH) by (destruct (nu_class nu); auto; right; discriminate).
  destruct K as [K|K]; [|intros x E; apply (nucl_plain nu coll K x E)].
  unfold nuclRate. rewrite K. apply all_bind with (R := fun r => nneg (fst (fst (fst r)))); [|intros [[[? ?] ?] ?] H; apply all_ok; exact H].
  unfold nuclPAH. apply all_bind with (R := accOk).
  { apply fold_ok. pose proof uC. repeat split; cbn [a_nDotD a_mDimer a_cMin]; try assumption; vm_compute; reflexivity. }
  intros a (A & B & C). cbv zeta. set (pos := nltb (nZ 0) (a_nDotD a)).
  assert (P : unsigned (f64lit 2 0 *. a_nDotD a)) by sg.
  set (mD := if pos then ndiv (a_mDimer a) _ else _). set (cM := if pos then ndiv (a_cMin a) _ else _).
  assert (UM : unsigned mD) by (unfold mD; destruct pos; [apply div_un; assumption|assumption]). clearbody mD cM.
  apply all_bind with (R := fun _ => True); [apply all_any|]. intros [Ib eff] _. apply all_ok. cbn [fst].
  change (pahPreFac (with_cMin s cM)) with (pahPreFac s). pose proof pre_un as PU. norm. set (pf := pahPreFac s) in * . clearbody pf.
  apply mul2_nn. sg.
Qed.
Lemma collSum_nn (co : coagObj (N:=FN)) m : unsigned (co_FM co) -> all (fun r => nneg (fst r)) (collSum co s m).
Proof.
  intros F. unfold collSum. apply all_bind with (R := nneg); [|intros x Hx; apply all_ok; exact Hx].
  assert (Z : nneg (nZ (N:=FN) 0)) by (vm_compute; reflexivity). generalize dependent (nZ (N:=FN) 0).
  induction (seq 0 (length (absc s))) as [|i l IH]; intros z Hz; cbn [foldM]; [apply all_ok, Hz|].
  apply all_bind with (R := nneg); [|exact IH]. apply all_bind with (R := fun _ => True); [apply all_any|]. intros w _.
  apply all_bind with (R := fun _ => True); [apply all_any|]. intros x _. apply all_ok. pose proof (coag_nn co m x F) as K.
  norm. set (k := coagRate co s m x) in * . clearbody k. sg.
Qed.

End Rates.
End Signs.
