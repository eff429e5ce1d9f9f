(** setState and the getters on extended reals; explicit counterexamples. *)
From Coq Require Import ZArith List Bool Reals Lra Lia.
From Verif Require Import Num Defs State Coag SpecState SpecChem SpecCoag StateProofs XR XRLemmas NumLaws.
Import ListNotations.
Local Open Scope R_scope.

(** acceptance of explicit arguments *)
Ltac in_cases H :=
  repeat (destruct H as [H|H]; [injection H as <- <-|]); try contradiction.
Ltac nofrom :=
  let i := fresh "i" in let x := fresh "x" in let E := fresh "E" in let Hx := fresh "Hx" in
  intros [i [x [E [_ Hx]]]];
  repeat (destruct i as [|i]; [cbn in E; injection E as <-; revert Hx; cbn [nltb XR xltb];
                               try (destruct (Rlt_dec _ _); [lra|discriminate]); discriminate|]);
  cbn in E; destruct i; discriminate.
Ltac noin :=
  let y := fresh "y" in let Hin := fresh "Hin" in let Hy := fresh "Hy" in
  intros [y [Hin Hy]]; cbn [In] in Hin;
  repeat (destruct Hin as [Hin|Hin];
    [subst y; revert Hy; unfold nZ; cbn [nltb nlit XR xltb rlit];
     repeat (let K := fresh in destruct (Rlt_dec _ _) as [K|K]; try lra); intuition discriminate|]); contradiction.

Definition six : list xr := [Fin 0; Fin 0; Fin 0; Fin 0; Fin 0; Fin 0].
Definition eleven : list xr := repeat (Fin 0) 11.
Definition someArgs (t p : xr) (yg sv : list xr) (ns : Z) (tv : list xr) (nt : Z) : args XR :=
  mkArgs t p (Fin 1) (Fin 1) yg six sv ns tv nt (Fin 100).

Lemma six_ok : xltb (Fin 1) (fold_left xadd six (Fin 0)) = false.
Proof. cbn [fold_left six]. repeat xstep. apply xltb_false. lra. Qed.

Lemma someArgs_accepted s t p yg sv ns tv nt :
  xleb t (Fin 0) = false -> xleb p (Fin 0) = false ->
  (forall y, In y yg -> xltb (Fin 1) y = false) ->
  ~ negFrom (N:=XR) (st_nsoot s) sv -> ~ negFrom (N:=XR) (st_Ntar s) tv -> length (yPah s) = 6%nat ->
  accepts s (someArgs t p yg sv ns tv nt).
Proof.
  intros Ht Hp Hg Hs Htv Hl e q Hin. unfold checks, someArgs in Hin.
  cbn [aT aP arho amu ayGas ayPah asoot ansoot atar aNtar acMin In] in Hin.
  assert (H1 : xleb (Fin 1) (Fin 0) = false) by (apply xleb_false; lra).
  assert (H100 : xleb (Fin 100) (Fin 0) = false) by (apply xleb_false; lra).
  destruct Hin as [Hin|[Hin|[Hin|[Hin|[Hin|[Hin|[Hin|[Hin|[Hin|[Hin|[Hin|[]]]]]]]]]]]]; injection Hin as <- <-; auto.
  - change (xleb t (Fin 0) <> true). congruence.
  - change (xleb p (Fin 0) <> true). congruence.
  - change (xleb (Fin 1) (Fin 0) <> true). congruence.
  - change (xleb (Fin 1) (Fin 0) <> true). congruence.
  - change (xleb (Fin 100) (Fin 0) <> true). congruence.
  - intros [y [Hy Hy']]. apply Hg in Hy. change (xltb (Fin 1) y = true) in Hy'. congruence.
  - intros [y [Hy Hy']]. cbn [In six] in Hy.
    assert (y = Fin 0) by (intuition congruence). subst y.
    change (xltb (Fin 0) (Fin 0) = true \/ xltb (Fin 1) (Fin 0) = true) in Hy'.
    rewrite (xltb_false 0 0), (xltb_false 1 0) in Hy' by lra. destruct Hy'; discriminate.
  - change (xltb (Fin 1) (fold_left xadd six (Fin 0)) <> true). rewrite six_ok. discriminate.
Qed.

Lemma negFrom_fin n (l : list R) : (forall x, In x l -> 0 <= x) -> ~ negFrom (N:=XR) n (map Fin l).
Proof.
  intros H [i [x [E [_ Hx]]]]. apply nth_error_In in E. apply in_map_iff in E as [r [<- Hr]].
  apply H in Hr. change (xltb (Fin r) (Fin 0) = true) in Hx. apply xltb_iff in Hx. lra.
Qed.

Lemma eleven_ok y : In y eleven -> xltb (Fin 1) y = false.
Proof. intros H. apply repeat_spec in H. subst. apply xltb_false; lra. Qed.

(** a NaN temperature is accepted *)
Lemma C02_nan : exists (s : state (N:=XR)) a s', call s a = SetOk s' /\ T s' = NaN.
Proof.
  exists (newState 2 0), (someArgs NaN (Fin 1) eleven (map Fin [1; 1]) 2 [] 0).
  destruct (accept_ok XR_cmpLaws (newState 2 0) (someArgs NaN (Fin 1) eleven (map Fin [1; 1]) 2 [] 0)) as [s' [E S]].
  - apply someArgs_accepted; try reflexivity; try apply eleven_ok.
    + apply xleb_false; lra.
    + apply negFrom_fin. cbn; intros; lra.
    + apply (negFrom_fin _ []). contradiction.
  - cbn; lia.
  - cbn; lia.
  - exists s'. split; auto. apply S.
Qed.

(** a negative gas mass fraction is accepted and stored *)
Lemma C02_neg : exists (s : state (N:=XR)) a s', call s a = SetOk s' /\ nth_error (yGas s') 0 = Some (Fin (-1)).
Proof.
  set (yg := Fin (-1) :: repeat (Fin 0) 10).
  exists (newState 2 0), (someArgs (Fin 1) (Fin 1) yg (map Fin [1; 1]) 2 [] 0).
  destruct (accept_ok XR_cmpLaws (newState 2 0) (someArgs (Fin 1) (Fin 1) yg (map Fin [1; 1]) 2 [] 0)) as [s' [E S]].
  - apply someArgs_accepted; try reflexivity.
    + apply xleb_false; lra.
    + apply xleb_false; lra.
    + intros y [<-|H]; [apply xltb_false; lra|]. apply repeat_spec in H. subst. apply xltb_false; lra.
    + apply negFrom_fin. cbn; intros; lra.
    + apply (negFrom_fin _ []). contradiction.
  - cbn; lia.
  - cbn; lia.
  - exists s'. split; auto. destruct S as (_&_&_&_&_&_&_&_&_&_&-> & _). reflexivity.
Qed.

(** a throwing call changes the object *)
Lemma C03_notAtomic : exists (s : state (N:=XR)) a e s', call s a = SetThrow e s' /\ T s' <> T s.
Proof.
  exists (newState 2 0), (someArgs (Fin 300) (Fin (-1)) eleven (map Fin [1; 1]) 2 [] 0), EDomP.
  eexists. split.
  - unfold call, setState, someArgs, nZ. cbn [aT aP nlit nleb XR rlit].
    rewrite xleb_false by lra. rewrite xleb_true by lra. reflexivity.
  - cbn. intros E. injection E. lra.
Qed.

(** two consecutive reasonable calls with undefined behaviour *)
Lemma C04_history_soot : exists (s s' : state (N:=XR)) a1 a2,
  s = newState 4 0 /\ call s a1 = SetOk s' /\ length (asoot a1) = 4%nat /\ ansoot a1 = 4%Z /\
  length (asoot a2) = 2%nat /\ ansoot a2 = 2%Z /\ accepts (newState 2 0) a2 /\ call s' a2 = SetUB.
Proof.
  set (a1 := someArgs (Fin 300) (Fin 1) eleven (map Fin [1; 1; 1; 1]) 4 [] 0).
  set (a2 := someArgs (Fin 300) (Fin 1) eleven (map Fin [1; 1]) 2 [] 0).
  destruct (accept_ok XR_cmpLaws (newState 4 0) a1) as [s' [E S]].
  - apply someArgs_accepted; try reflexivity; try apply eleven_ok; try (apply xleb_false; lra).
    + apply negFrom_fin. cbn; intros; lra.
    + apply (negFrom_fin _ []). contradiction.
  - cbn; lia.
  - cbn; lia.
  - exists (newState 4 0), s', a1, a2. repeat (split; [first [reflexivity|assumption]|]). split.
    + apply someArgs_accepted; try reflexivity; try apply eleven_ok; try (apply xleb_false; lra).
      * apply negFrom_fin. cbn; intros; lra.
      * apply (negFrom_fin _ []). contradiction.
    + apply (C04_ub XR_cmpLaws). split.
      * unfold scalarsOk, a2, someArgs, nZ. cbn [aT aP arho amu acMin nleb nlit XR rlit].
        repeat split; apply xleb_false; lra.
      * left. destruct S as (_&_&_&_&_&_&-> & _). cbn. lia.
Qed.

Lemma C04_history_tar : exists (s s' : state (N:=XR)) a1 a2,
  s = newState 2 1 /\ call s a1 = SetOk s' /\ aNtar a1 = 1%Z /\ length (atar a1) = 1%nat /\
  atar a2 = [] /\ aNtar a2 = 0%Z /\ accepts (newState 2 0) a2 /\ call s' a2 = SetUB.
Proof.
  set (a1 := someArgs (Fin 300) (Fin 1) eleven (map Fin [1; 1]) 2 (map Fin [1]) 1).
  set (a2 := someArgs (Fin 300) (Fin 1) eleven (map Fin [1; 1]) 2 [] 0).
  destruct (accept_ok XR_cmpLaws (newState 2 1) a1) as [s' [E S]].
  - apply someArgs_accepted; try reflexivity; try apply eleven_ok; try (apply xleb_false; lra).
    + apply negFrom_fin. cbn; intros; lra.
    + apply negFrom_fin. cbn; intros; lra.
  - cbn; lia.
  - cbn; lia.
  - exists (newState 2 1), s', a1, a2. repeat (split; [first [reflexivity|assumption]|]). split.
    + apply someArgs_accepted; try reflexivity; try apply eleven_ok; try (apply xleb_false; lra).
      * apply negFrom_fin. cbn; intros; lra.
      * apply (negFrom_fin _ []). contradiction.
    + apply (C04_ub XR_cmpLaws). split.
      * unfold scalarsOk, a2, someArgs, nZ. cbn [aT aP arho amu acMin nleb nlit XR rlit].
        repeat split; apply xleb_false; lra.
      * right. split.
        -- apply negFrom_fin. cbn; intros; lra.
        -- destruct S as (_&_&_&_&_&_&_&_&-> & _). cbn. lia.
Qed.

(** whether a negative soot value is clipped depends on the previous call *)
Lemma C05_negative : exists (s1 s2 : state (N:=XR)) a,
  length (yPah s1) = length (yPah s2) /\
  (exists r, call s1 a = SetOk r) /\ (exists r, call s2 a = SetThrow EDomSoot r).
Proof.
  set (a := someArgs (Fin 300) (Fin 1) eleven (map Fin [1; -1]) 2 [] 0).
  exists (newState 2 0), (newState 0 0), a. split; [reflexivity|].
  assert (Hx : forall n : Z, (n = 0 \/ n = 2)%Z ->
    (negFrom (N:=XR) n (map Fin [1; -1]) <-> n = 0%Z)).
  { intros n Hn. split.
    - intros [i [x [Ei [Hi Hx]]]]. destruct i as [|[|i]].
      + cbn in Ei. injection Ei as <-. change (xltb (Fin 1) (Fin 0) = true) in Hx. apply xltb_iff in Hx. lra.
      + cbn in Hi. lia.
      + cbn in Ei. destruct i; discriminate.
    - intros ->. exists 1%nat, (Fin (-1)). split; [reflexivity|]. split; [lia|]. change (xltb (Fin (-1)) (Fin 0) = true). apply xltb_true; lra. }
  split.
  - destruct (accept_ok XR_cmpLaws (newState 2 0) a) as [s' [E S]]; eauto; try (cbn; lia).
    apply someArgs_accepted; try reflexivity; try apply eleven_ok; try (apply xleb_false; lra).
    + cbn [st_nsoot newState]. rewrite Hx by (cbn; lia). cbn; lia.
    + apply (negFrom_fin _ []). contradiction.
  - apply (throws_soot XR_cmpLaws).
    + unfold scalarsOk, a, someArgs, nZ. cbn [aT aP arho amu acMin nleb nlit XR rlit].
      repeat split; apply xleb_false; lra.
    + cbn; lia.
    + apply Hx; cbn; lia.
Qed.

(** C06 *)
Lemma rNa_val : rNa = avogadro.
Proof. reflexivity. Qed.
Lemma rkb_val : rkb = boltzmann.
Proof. reflexivity. Qed.
Transparent rMW rpahMW.
Lemma rMW_val sp : rMW sp = molarMass sp.
Proof. destruct sp; unfold rMW, molarMass, massC, massH, massO; cbn [atomsC atomsH atomsO]; lra. Qed.
Lemma rpahMW_val sp : rpahMW sp = pahMolarMass sp.
Proof. destruct sp; unfold rpahMW, pahMolarMass, massC, massH, massO; cbn [pahAtomsC pahAtomsH]; lra. Qed.
Opaque rMW rpahMW.

Lemma C06_gas (s s' : state (N:=XR)) a t p rho sp y :
  call s a = SetOk s' -> aT a = Fin t -> aP a = Fin p -> arho a = Fin rho ->
  nth_error (ayGas a) (gasIdx sp) = Some (Fin y) ->
  exists c q, getGasSpC s' sp = Ok (Fin c) /\ getGasSpP s' sp = Ok (Fin q) /\
              c = rho * y / molarMass sp /\ q = c * (avogadro * boltzmann * t).
Proof.
  intros E Et Ep Er Ey.
  pose proof (describe XR_cmpLaws s a) as D. rewrite E in D. inversion D as [? Ha Hs B1 B2| |]; subst.
  destruct Hs as (ET & EP & ER & Em & Ec & EM & En & Cs & Ett & Ct & Eg & Ey' & _).
  assert (Hp : 0 < p).
  { destruct (Rlt_dec 0 p); auto. exfalso. apply (Ha EDomP (nleb (aP a) (nZ 0) = true)).
    - cbn [checks In]. auto.
    - rewrite Ep. change (xleb (Fin p) (Fin 0) = true). apply xleb_true. lra. }
  unfold getGasSpC, getGasSpP, vget. rewrite Eg, Ey, EM, ER, EP, Et, Ep, Er. cbn [bind].
  xsimp. do 2 eexists. split; [reflexivity|]. split; [reflexivity|].
  rewrite <- rNa_val, <- rkb_val, <- rMW_val. split; field; try split; nz.
Qed.

Lemma C06_pah (s s' : state (N:=XR)) a t p rho sp y :
  call s a = SetOk s' -> aT a = Fin t -> aP a = Fin p -> arho a = Fin rho ->
  nth_error (ayPah a) (pahIdx sp) = Some (Fin y) ->
  exists c q, get_pahSpC s' sp = Ok (Fin c) /\ get_pahSpP s' sp = Ok (Fin q) /\
              c = rho * y / pahMolarMass sp /\ q = c * (avogadro * boltzmann * t).
Proof.
  intros E Et Ep Er Ey.
  pose proof (describe XR_cmpLaws s a) as D. rewrite E in D. inversion D as [? Ha Hs B1 B2| |]; subst.
  destruct Hs as (ET & EP & ER & Em & Ec & EM & En & Cs & Ett & Ct & Eg & Ey' & _).
  assert (Hp : 0 < p).
  { destruct (Rlt_dec 0 p); auto. exfalso. apply (Ha EDomP (nleb (aP a) (nZ 0) = true)).
    - cbn [checks In]. auto.
    - rewrite Ep. change (xleb (Fin p) (Fin 0) = true). apply xleb_true. lra. }
  unfold get_pahSpC, get_pahSpP, vget. rewrite Ey', Ey, EM, ER, EP, Et, Ep, Er. cbn [bind].
  xsimp. do 2 eexists. split; [reflexivity|]. split; [reflexivity|].
  rewrite <- rNa_val, <- rkb_val, <- rpahMW_val. split; field; try split; nz.
Qed.

(** satisfiability of the hypotheses *)
Lemma ok_case (s : state (N:=XR)) (l : list R) n : (forall x, In x l -> 0 <= x) -> length (yPah s) = 6%nat ->
  (st_nsoot s <= Z.of_nat (length l))%Z -> (st_Ntar s <= 0)%Z ->
  exists s', call s (someArgs (Fin 300) (Fin 1) eleven (map Fin l) n [] 0) = SetOk s'.
Proof.
  intros H L B B'.
  destruct (accept_ok XR_cmpLaws s (someArgs (Fin 300) (Fin 1) eleven (map Fin l) n [] 0)) as [s' [E S]]; eauto.
  - apply someArgs_accepted; try apply eleven_ok; try (apply xleb_false; lra); auto.
    + now apply negFrom_fin.
    + apply (negFrom_fin _ []). contradiction.
  - cbn [asoot someArgs]. rewrite map_length. lia.
Qed.
Lemma some_ok : exists (s : state (N:=XR)) a s', call s a = SetOk s'.
Proof.
  exists (newState 2 0). eexists.
  apply (ok_case (newState 2 0) [1; 1] 2); try reflexivity; cbn; try lia. intros; lra.
Qed.
Lemma some_throw : exists (s : state (N:=XR)) a e s', call s a = SetThrow e s'.
Proof. destruct C03_notAtomic as [s [a [e [s' [H _]]]]]. eauto. Qed.
Lemma C05_case : exists (s1 s2 : state (N:=XR)) a,
  st_nsoot s1 <> st_nsoot s2 /\
  nonneg (asoot a) /\ nonneg (atar a) /\ length (yPah s1) = length (yPah s2) /\
  (st_nsoot s1 <= Z.of_nat (length (asoot a)))%Z /\ (st_nsoot s2 <= Z.of_nat (length (asoot a)))%Z /\
  (st_Ntar s1 <= Z.of_nat (length (atar a)))%Z /\ (st_Ntar s2 <= Z.of_nat (length (atar a)))%Z /\
  exists r1 r2, call s1 a = SetOk r1 /\ call s2 a = SetOk r2.
Proof.
  exists (newState 2 0), (newState 1 0), (someArgs (Fin 300) (Fin 1) eleven (map Fin [1; 1]) 2 [] 0).
  split; [cbn; discriminate|]. split.
  { intros x Hx. cbn [someArgs asoot map In] in Hx. assert (x = Fin 1) by intuition congruence. subst.
    change (xltb (Fin 1) (Fin 0) = false); apply xltb_false; lra. }
  split; [intros x []|]. do 5 (split; [first [reflexivity | cbn; lia]|]).
  destruct (ok_case (newState 2 0) [1; 1] 2) as [r1 E1]; try reflexivity; cbn; try lia. { intros; lra. }
  destruct (ok_case (newState 1 0) [1; 1] 2) as [r2 E2]; try reflexivity; cbn; try lia. { intros; lra. }
  eauto.
Qed.
Lemma C06_case : exists (s s' : state (N:=XR)) a t p rho y,
  call s a = SetOk s' /\ aT a = Fin t /\ aP a = Fin p /\ arho a = Fin rho /\
  nth_error (ayGas a) (gasIdx C2H2) = Some (Fin y) /\ nth_error (ayPah a) (pahIdx C16H10) = Some (Fin y).
Proof.
  destruct (ok_case (newState 2 0) [1; 1] 2) as [r1 E1]; try reflexivity; cbn; try lia. { intros; lra. }
  do 7 eexists. split; [exact E1|]. repeat split.
Qed.

(** the gas fields after a normal return, for real positive arguments *)
Lemma gasState_of_call (s s' : state (N:=XR)) a t p rho mu :
  call s a = SetOk s' -> aT a = Fin t -> aP a = Fin p -> arho a = Fin rho -> amu a = Fin mu ->
  gasState s' t p rho mu.
Proof.
  intros E Et Ep Er Eu.
  pose proof (describe XR_cmpLaws s a) as D. rewrite E in D. inversion D as [? Ha Hs B1 B2| |]; subst.
  destruct Hs as (ET & EP & ER & Em & Ec & EM & _).
  assert (K : forall e x r, In (e, nleb x (nZ 0) = true) (checks s a) -> x = Fin r -> 0 < r).
  { intros e x r Hin ->. destruct (Rlt_dec 0 r); auto. exfalso. apply (Ha _ _ Hin).
    change (xleb (Fin r) (Fin 0) = true). apply xleb_true. lra. }
  cbn [checks In] in K.
  assert (Pt : 0 < t) by (eapply K; [left; reflexivity|auto]).
  assert (Pp : 0 < p) by (eapply K; [right; left; reflexivity|auto]).
  assert (Pr : 0 < rho) by (eapply K; [do 2 right; left; reflexivity|auto]).
  assert (Pm : 0 < mu) by (eapply K; [do 3 right; left; reflexivity|auto]).
  unfold gasState. rewrite ET, EP, ER, Em, EM, Et, Ep, Er, Eu.
  repeat (split; [assumption || reflexivity|]). xsimp. rewrite rNa_val, rkb_val. reflexivity.
Qed.
Lemma cut_lt_1 : massCutoff < 1.
Proof.
  unfold massCutoff. apply (Rmult_lt_reg_r (IZR (10 ^ 26))); [apply IZR_lt; reflexivity|].
  unfold Rdiv. rewrite Rmult_assoc, Rinv_l; [|apply Rgt_not_eq, IZR_lt; reflexivity].
  rewrite Rmult_1_l, Rmult_1_r. apply IZR_lt. reflexivity.
Qed.
Lemma some_gasState : exists (s : state (N:=XR)), gasState s 300 1 1 1.
Proof.
  destruct (ok_case (newState 2 0) [1; 1] 2) as [r1 E1]; try reflexivity; cbn; try lia. { intros; lra. }
  exists r1. eapply gasState_of_call; [exact E1| | | |]; reflexivity.
Qed.
Lemma coag_case : exists (s : state (N:=XR)) t p rho mu,
  gasState s t p rho mu /\ massCutoff < 1 /\ co_FM (newCoag (N:=XR) C_HM) = Fin 1.
Proof. destruct some_gasState as [s H]. exists s, 300, 1, 1, 1. split; auto. split; [apply cut_lt_1|reflexivity]. Qed.
