(** Gas-rate functions of the mechanisms on extended reals. *)
From Coq Require Import ZArith List Bool Reals Lra Lia.
From Verif Require Import Num Defs State Nucl Growth Oxid XR XRLemmas SpecChem SpecGas StateXR.
Import ListNotations.
Local Open Scope R_scope.


Lemma nth_gasMW sp : nth (gasIdx sp) (@gasSpMW XR) (nZ 0) = Fin (rMW sp).
Proof. exact (X_MW sp). Qed.

Lemma gasIdx_C sp : Nat.eqb (gasIdx sp) (gasIdx C_) = true -> sp = C_.
Proof. destruct sp; cbn; congruence. Qed.

Lemma nth_error_seqmap {A} (f : nat -> A) n i : (i < n)%nat -> nth_error (map f (seq 0 n)) i = Some (f i).
Proof.
  intros H. rewrite nth_error_map, (nth_error_nth' (seq 0 n) 0%nat) by (rewrite seq_length; auto).
  rewrite seq_nth by auto. reflexivity.
Qed.
Lemma gasIdx_lt sp : (gasIdx sp < gasSize)%nat.
Proof. destruct sp; cbn; unfold gasSize; lia. Qed.
Lemma gasIdx_inv i : (i < gasSize)%nat -> exists sp, i = gasIdx sp.
Proof.
  intros H. do 11 (destruct i as [|i]; [first [exists O2; reflexivity|exists O_; reflexivity|exists H2; reflexivity
    |exists H_; reflexivity|exists OH; reflexivity|exists H2O; reflexivity|exists CO; reflexivity|exists C2H2; reflexivity
    |exists C6H6; reflexivity|exists C_; reflexivity|exists CO2; reflexivity]|]). unfold gasSize in H; lia.
Qed.

(** rates from a table of finite ratios with r(C) <> 0 *)
Definition rateOf (r : gasSp -> R) (mdot : R) (sp : gasSp) : R :=
  match sp with C_ => 0 | _ => mdot * r sp * molarMass sp / (r C_ * massC) end.

Lemma gasRates_val (ratios : list xr) (r : gasSp -> R) mdot :
  (forall sp, nth (gasIdx sp) ratios (Fin 0) = Fin (r sp)) -> r C_ <> 0 ->
  holdsGas (addGasRates (N:=XR) ratios (Fin mdot) (zeros gasSize)) (rateOf r mdot).
Proof.
  intros Hr HC. split; [unfold addGasRates; rewrite map_length, seq_length; reflexivity|].
  intros sp. unfold addGasRates. rewrite nth_error_seqmap by apply gasIdx_lt. f_equal.
  assert (E0 : nth (gasIdx sp) (@zeros XR gasSize) (nZ 0) = Fin 0).
  { unfold zeros. rewrite nth_repeat. reflexivity. }
  cbv zeta. rewrite E0. destruct (Nat.eqb_spec (gasIdx sp) (gasIdx C_)) as [E|E].
  - assert (sp = C_) by (apply gasIdx_C, Nat.eqb_eq; auto). subst. reflexivity.
  - rewrite nth_gasMW, X_MW.
    change (@nth (@num XR) ?i ratios (nZ 0)) with (nth i ratios (Fin 0)). rewrite !Hr.
    rewrite rMW_val, (rMW_val C_).
    assert (EC : molarMass C_ = massC) by (unfold molarMass, massC, massH, massO; cbn [atomsC atomsH atomsO]; lra).
    assert (HM : r C_ * massC <> 0).
    { apply Rmult_integral_contrapositive_currified; [auto|unfold massC; lra]. }
    rewrite EC. xcbn.
    change (xmul (Fin (r C_)) (Fin massC)) with (Fin (r C_ * massC)).
    change (xmul (xmul (Fin mdot) (Fin (r sp))) (Fin (molarMass sp))) with (Fin (mdot * r sp * molarMass sp)).
    rewrite (xdiv_fin _ _ HM).
    change (xadd (Fin 0) (Fin ?b)) with (Fin (0 + b)). f_equal. rewrite Rplus_0_l.
    destruct sp; try reflexivity. congruence.
Qed.

(** the ratio tables, as real functions *)
Definition acetylene (sp : gasSp) : R := match sp with C2H2 => -1 | H2 => 1 | C_ => 2 | _ => 0 end.
Definition nuclR (c : nucleationMech) (sp : gasSp) : R :=
  match c with
  | N_NONE => match sp with C_ => 1 | _ => 0 end
  | N_LINA1 => match sp with C6H6 => -1 | H2 => 3 | C_ => 6 | _ => 0 end
  | N_PAH | N_size => 0
  | _ => acetylene sp
  end.
Definition growR (c : growthMech) (sp : gasSp) : R :=
  match c with
  | G_NONE => match sp with C_ => 1 | _ => 0 end
  | G_size => 0
  | G_HACA => match sp with OH => -1 | H_ => -1 | H2 => 1 | H2O => 1 | C2H2 => -1 | C_ => 2 | _ => 0 end
  | _ => acetylene sp
  end.
Definition oxidR (c : oxidationMech) (sp : gasSp) : R :=
  match c with
  | O_NONE | O_size => match sp with C_ => 1 | _ => 0 end
  | O_LL | O_FAIR | O_AJ_RED | O_BROWN => match sp with CO => 1 | O2 => -5 / 10 | C_ => -1 | _ => 0 end
  | O_LEE_NEOH | O_NSC_NEOH | O_OPTJ | O_OPTG =>
      match sp with CO => 2 | H_ => 1 | OH => -1 | O2 => -5 / 10 | C_ => -2 | _ => 0 end
  | O_MB => match sp with H_ => 1 | OH => -1 | CO => 1 | C_ => -1 | _ => 0 end
  | O_HACA => match sp with O2 => -1 | OH => -1 | H_ => 1 | CO => 3 | C_ => -3 | _ => 0 end
  end.
Lemma nuclR_ok c sp : nth (gasIdx sp) (@nuclRatios XR c) (Fin 0) = Fin (nuclR c sp).
Proof. destruct c, sp; reflexivity. Qed.
Lemma growR_ok c sp : nth (gasIdx sp) (@growRatios XR c) (Fin 0) = Fin (growR c sp).
Proof. destruct c, sp; reflexivity. Qed.
Lemma oxidR_ok c sp : nth (gasIdx sp) (@oxidRatios XR c) (Fin 0) = Fin (oxidR c sp).
Proof. destruct c, sp; reflexivity. Qed.

Definition balanced (g : gasSp -> R) (mdot : R) : Prop :=
  total g = - mdot /\ g C_ = 0 /\
  element atomsC g + mdot / massC = 0 /\ element atomsH g = 0 /\ element atomsO g = 0.

Ltac balance :=
  unfold total, element, total, rateOf, nuclR, growR, oxidR, acetylene, molarMass, massC, massH, massO;
  cbn [atomsC atomsH atomsO]; repeat split; field.

Lemma holdsGas_ext v g g' : holdsGas v g -> (forall sp, g sp = g' sp) -> holdsGas v g'.
Proof. intros [A B] E. split; auto. intros sp. rewrite B, E. reflexivity. Qed.
Ltac same_rate := unfold rateOf, nuclGas, growGas, oxidGas, viaAcetylene, reacts, nuclR, growR, oxidR, acetylene; unfold massC; try field.
Lemma nucl_each c mdot : c <> N_PAH -> c <> N_size ->
  holdsGas (getNucleationGasRates (@newNucl XR c) (Fin mdot) (zeros gasSize)) (nuclGas c mdot).
Proof.
  intros H1 H2. apply (holdsGas_ext _ (rateOf (nuclR c) mdot)).
  - apply gasRates_val; [apply nuclR_ok|]. destruct c; unfold nuclR, acetylene; try congruence; lra.
  - intros sp. destruct c; try congruence; destruct sp; same_rate.
Qed.
Lemma grow_each c mdot : c <> G_size ->
  holdsGas (getGrowthGasRates (@newGrow XR c) (Fin mdot) (zeros gasSize)) (growGas c mdot).
Proof.
  intros H2. apply (holdsGas_ext _ (rateOf (growR c) mdot)).
  - apply gasRates_val; [apply growR_ok|]. destruct c; unfold growR, acetylene; try congruence; lra.
  - intros sp. destruct c; try congruence; destruct sp; same_rate.
Qed.
(** the library passes the (negative) soot mass rate *)
Lemma oxid_each c mdot : c <> O_size ->
  holdsGas (getOxidationGasRates (@newOxid XR c) (Fin mdot) (zeros gasSize)) (oxidGas c (- mdot)).
Proof.
  intros H2. apply (holdsGas_ext _ (rateOf (oxidR c) mdot)).
  - apply gasRates_val; [apply oxidR_ok|]. destruct c; unfold oxidR; try congruence; lra.
  - intros sp. destruct c; try congruence; destruct sp; same_rate.
Qed.
Lemma nucl_gas c mdot : c <> N_PAH -> c <> N_size ->
  exists g, holdsGas (getNucleationGasRates (@newNucl XR c) (Fin mdot) (zeros gasSize)) g /\
    balanced g (match c with N_NONE => 0 | _ => mdot end).
Proof.
  intros H1 H2. exists (rateOf (nuclR c) mdot). split.
  - apply gasRates_val; [apply nuclR_ok|]. destruct c; unfold nuclR, acetylene; try congruence; lra.
  - destruct c; try congruence; unfold balanced; balance.
Qed.
Lemma grow_gas c mdot : c <> G_size ->
  exists g, holdsGas (getGrowthGasRates (@newGrow XR c) (Fin mdot) (zeros gasSize)) g /\
    balanced g (match c with G_NONE => 0 | _ => mdot end).
Proof.
  intros H2. exists (rateOf (growR c) mdot). split.
  - apply gasRates_val; [apply growR_ok|]. destruct c; unfold growR, acetylene; try congruence; lra.
  - destruct c; try congruence; unfold balanced; balance.
Qed.
Lemma oxid_gas c mdot : c <> O_size ->
  exists g, holdsGas (getOxidationGasRates (@newOxid XR c) (Fin mdot) (zeros gasSize)) g /\
    balanced g (match c with O_NONE => 0 | _ => mdot end).
Proof.
  intros H2. exists (rateOf (oxidR c) mdot). split.
  - apply gasRates_val; [apply oxidR_ok|]. destruct c; unfold oxidR; try congruence; lra.
  - destruct c; try congruence; unfold balanced; balance.
Qed.

Lemma C19_nucl c mdot : c <> N_PAH -> c <> N_size ->
  exists g, holdsGas (getNucleationGasRates (@newNucl XR c) (Fin mdot) (zeros gasSize)) g /\
    total g = match c with N_NONE => 0 | _ => - mdot end /\ g C_ = 0.
Proof.
  intros A B. destruct (nucl_gas c mdot A B) as (g & H & T & C & _). exists g. repeat split; try apply H; auto.
  rewrite T; destruct c; lra.
Qed.
Lemma C19_grow c mdot : c <> G_size ->
  exists g, holdsGas (getGrowthGasRates (@newGrow XR c) (Fin mdot) (zeros gasSize)) g /\
    total g = match c with G_NONE => 0 | _ => - mdot end /\ g C_ = 0.
Proof.
  intros B. destruct (grow_gas c mdot B) as (g & H & T & C & _). exists g. repeat split; try apply H; auto.
  rewrite T; destruct c; lra.
Qed.
Lemma C19_oxid c mdot : c <> O_size ->
  exists g, holdsGas (getOxidationGasRates (@newOxid XR c) (Fin mdot) (zeros gasSize)) g /\
    total g = match c with O_NONE => 0 | _ => - mdot end /\ g C_ = 0.
Proof.
  intros B. destruct (oxid_gas c mdot B) as (g & H & T & C & _). exists g. repeat split; try apply H; auto.
  rewrite T; destruct c; lra.
Qed.
Lemma C20_nucl c mdot : c <> N_PAH -> c <> N_size -> c <> N_NONE ->
  exists g, holdsGas (getNucleationGasRates (@newNucl XR c) (Fin mdot) (zeros gasSize)) g /\
    element atomsC g + mdot / massC = 0 /\ element atomsH g = 0 /\ element atomsO g = 0.
Proof.
  intros A B D. destruct (nucl_gas c mdot A B) as (g & H & _ & _ & E). exists g.
  split; [exact H|]. destruct c; try congruence; exact E.
Qed.
Lemma C20_grow c mdot : c <> G_size -> c <> G_NONE ->
  exists g, holdsGas (getGrowthGasRates (@newGrow XR c) (Fin mdot) (zeros gasSize)) g /\
    element atomsC g + mdot / massC = 0 /\ element atomsH g = 0 /\ element atomsO g = 0.
Proof.
  intros A B. destruct (grow_gas c mdot A) as (g & H & _ & _ & E). exists g.
  split; [exact H|]. destruct c; try congruence; exact E.
Qed.
Lemma C20_oxid c mdot : c <> O_size -> c <> O_NONE ->
  exists g, holdsGas (getOxidationGasRates (@newOxid XR c) (Fin mdot) (zeros gasSize)) g /\
    element atomsC g + mdot / massC = 0 /\ element atomsH g = 0 /\ element atomsO g = 0.
Proof.
  intros A B. destruct (oxid_gas c mdot A) as (g & H & _ & _ & E). exists g.
  split; [exact H|]. destruct c; try congruence; exact E.
Qed.
Lemma C20_none mdot :
  holdsGas (getNucleationGasRates (@newNucl XR N_NONE) (Fin mdot) (zeros gasSize)) (fun _ => 0) /\
  holdsGas (getGrowthGasRates (@newGrow XR G_NONE) (Fin mdot) (zeros gasSize)) (fun _ => 0) /\
  holdsGas (getOxidationGasRates (@newOxid XR O_NONE) (Fin mdot) (zeros gasSize)) (fun _ => 0).
Proof.
  repeat split; try reflexivity; intros sp.
  - assert (H : holdsGas (getNucleationGasRates (@newNucl XR N_NONE) (Fin mdot) (zeros gasSize)) (rateOf (nuclR N_NONE) mdot)).
    { apply gasRates_val; [apply nuclR_ok|unfold nuclR; lra]. }
    destruct H as [_ H]. rewrite H. do 2 f_equal. destruct sp; unfold rateOf, nuclR, massC; lra.
  - assert (H : holdsGas (getGrowthGasRates (@newGrow XR G_NONE) (Fin mdot) (zeros gasSize)) (rateOf (growR G_NONE) mdot)).
    { apply gasRates_val; [apply growR_ok|unfold growR; lra]. }
    destruct H as [_ H]. rewrite H. do 2 f_equal. destruct sp; unfold rateOf, growR, massC; lra.
  - assert (H : holdsGas (getOxidationGasRates (@newOxid XR O_NONE) (Fin mdot) (zeros gasSize)) (rateOf (oxidR O_NONE) mdot)).
    { apply gasRates_val; [apply oxidR_ok|unfold oxidR; lra]. }
    destruct H as [_ H]. rewrite H. do 2 f_equal. destruct sp; unfold rateOf, oxidR, massC; lra.
Qed.
