(** What the mechanisms in use allow the sources to do. *)
From Coq Require Import ZArith List Bool Reals Lra Lia.
From Verif Require Import Num Defs State Coag Nucl Growth Oxid Tar SootModel Qmom Calls XR SpecConfig SpecValid SpecRates SpecGas SpecPah SpecPsd SpecSect SpecMomic SpecFinite SpecScale SpecSigns SectProofs MonoProofs FiniteMain ScaleMain.
Import ListNotations.
Local Open Scope R_scope.

Lemma moment_parts p b n A B O C gO r : momentOf p b n (fun j => A j + gO * B j + 1 * O j + 1 ^ 2 * C j) r = momentOf p b n A r + gO * momentOf p b n B r + momentOf p b n O r + momentOf p b n C r.
Proof.
  unfold momentOf. destruct p; try ring.
  rewrite <- Sum_scal, <- !Sum_add. apply Sum_ext. intros j _. ring.
Qed.
Lemma moment_zero p b n f r : (forall j, f j = 0) -> momentOf p b n f r = 0.
Proof. intros H. unfold momentOf. destruct p; auto. apply Sum_0. intros j _. rewrite H. ring. Qed.
Lemma nucl_zero p k g b j : mN k = N_NONE -> nuclSource p k g b j = 0.
Proof.
  intros E. assert (J : Jnuc k g = 0) by (unfold Jnuc; now rewrite E). unfold nuclSource, momA, sectA. rewrite J. unfold Rdiv. destruct p; try destruct (Nat.eqb j 0); ring.
Qed.
Lemma scaled_1 l : scaled 1 l = l.
Proof. unfold scaled. induction l as [|x l IH]; cbn [map]; [reflexivity|]. rewrite IH. f_equal. ring. Qed.
Lemma order_1 gr : growOrder gr 1 = 1.
Proof. unfold growOrder. destruct gr; auto. apply sqrt_1. Qed.
Lemma C66_directed_ p n nu gr ox co nt ta F c (m : model (N:=XR)) g soot tar eig :
  let k := mkMechs nu gr ox co 1 in let b := geometric c F n in
  goodConfig p n nu co ta F c -> nu <> N_PAH -> constructEnum p n nu gr ox co nt ta (Fin F) c = Ok m ->
  goodStep p k b n nt (mkStep g soot tar eig) -> someSoot p soot ->
  forall l, (forall x, In x l -> goodStep p k b n nt x) ->
    exists st' m' s' y, runActions (None, m, newState n nt) (actionsOf l ++ [setTo g soot tar; ASrc eig]) = Ok (st', m', s') /\
      soots m' = map (fun j => Fin (y j)) (seq 0 n) /\ directed p b n k y.
Proof.
  intros k b GC NPN E GS SS l HL. destruct (C66_ p n nu gr ox co nt ta F c m g soot tar eig GC NPN E GS SS) as (B & O & C & GB & GO & ((OB & OO & OC) & D) & H).
  fold k b in H, OB, OO, OC, D. destruct (H l 1 ltac:(lra) HL) as (st' & m' & s' & R & S & _). rewrite scaled_1 in R. unfold parts in S.
  eexists st', m', s', _. split; [exact R|]. split; [exact S|]. intros r Hr. cbv zeta. rewrite moment_parts, order_1. specialize (D r Hr). cbv zeta in D.
  set (MA := momentOf p b n (nuclSource p k g b) r) in *. set (MB := momentOf p b n B r) in *. set (MO := momentOf p b n O r) in *. set (MC := momentOf p b n C r) in *.
  destruct D as (DA & DB & DO & C0 & C1 & C2 & Z).
  assert (ZA : mN k = N_NONE -> MA = 0) by (intros X; apply moment_zero; intros; now apply nucl_zero).
  assert (ZB : mG k = G_NONE -> MB = 0) by (intros X; apply moment_zero; now apply OB).
  assert (ZO : mO k = O_NONE -> MO = 0) by (intros X; apply moment_zero; now apply OO).
  assert (ZC : mC k = C_NONE -> MC = 0) by (intros X; apply moment_zero; now apply OC).
  split; [|split; [|split; [|split; [|split]]]].
  - intros X1 X2 X3. rewrite (ZA X1), (ZB X2), (ZO X3). split; [|split]; intros Q; [specialize (C0 Q)|specialize (C1 Q)|specialize (C2 Q)]; lra.
  - intros X1 Q. rewrite (ZO X1), (C1 Q). lra.
  - intros X1 X2 Q. rewrite (ZA X1), (ZB X2). destruct r as [|[|r]]; [specialize (C0 eq_refl)|specialize (C1 eq_refl)|lia]; lra.
  - intros X1 X2 Q. rewrite (ZA X1). destruct (Z Q X2) as (Z1 & Z2). rewrite Z1, Z2. specialize (C0 Q). lra.
  - intros X1 [X2|Q]; rewrite (ZO X1); [rewrite (ZC X2)|specialize (C2 Q)]; lra.
  - intros X1 X2 X3. rewrite (ZA X1), (ZB X2), (ZC X3). lra.
Qed.
