(** Proofs for C63: soot variables of any sign. *)
From Coq Require Import ZArith List Bool Reals Lra Lia.
From Verif Require Import Num Defs State Coag Nucl Growth Oxid Tar SootModel Mono Qmom Momic Calls XR XRLemmas NumLaws SpecState SpecConfig SpecChem SpecCoag SpecValid SpecRates SpecGas SpecPah SpecPsd SpecSect SpecMomic SpecFinite SpecSign
  ConfigProofs StateProofs ValidProofs FiniteMain VesselProofs BurnProofs.
Import ListNotations.
Local Open Scope R_scope.

Section Sign.
Context (p : psdMech) (n : nat) (nu : nucleationMech) (gr : growthMech) (ox : oxidationMech) (co : coagulationMech) (nt : nat) (ta : tarMech) (F : R) (c : Z) (m : model (N:=XR)).
Context (GC : goodConfig p n nu co ta F c) (E0 : constructEnum p n nu gr ox co nt ta (Fin F) c = Ok m).
Let k := mkMechs nu gr ox co 1.
Let b := geometric c F n.
Lemma good_clip x : (p = P_MOMIC -> co = C_CONTINUUM /\ nu <> N_PAH) -> (p = P_LOGN -> nu <> N_PAH) -> anySign p k b n nt x -> length (spSoot x) = n /\ goodStep p k b n nt (clipStep x).
Proof.
  intros NM NL (A & B & C & D & E). split; [exact B|]. split; [exact A|]. split; [cbn [clipStep spSoot]; now rewrite clip_len|]. split; [exact C|]. split; [cbn [clipStep spSoot]; apply clip_nn|].
  split; [exact D|]. split; [exact E|]. destruct p; try exact I; [intros H; exfalso; now apply NL|].
  destruct (NM eq_refl) as (C1 & C2). split; intros H; exfalso; now apply H || apply C2.
Qed.
Lemma any_sign_same l : (p = P_MOMIC -> co = C_CONTINUUM /\ nu <> N_PAH) -> (p = P_LOGN -> nu <> N_PAH) -> (forall x, In x l -> anySign p k b n nt x) ->
  runActions (None, m, newState n nt) (actionsOf l) = runActions (None, m, newState n nt) (actionsOf (map (fun x => mkStep (spGas x) (nonNegative (spSoot x)) (spTar x) (spEig x)) l)) /\
  exists st' m' s', runActions (None, m, newState n nt) (actionsOf l) = Ok (st', m', s') /\ finiteSources m'.
Proof.
  intros NM NL H. destruct (start _ _ _ _ _ _ _ _ _ _ _ GC E0) as (_ & OM & _ & I0). fold k in OM, I0.
  assert (SAME := same_run p k n nt F c OM l _ I0 (fun x Hx => good_clip x NM NL (H x Hx))). split; [exact SAME|].
  destruct (C63_history_ p n nu gr ox co nt ta F c m (map clipStep l) GC E0) as (st' & m' & s' & R & Q).
  { intros x Hx. apply in_map_iff in Hx. destruct Hx as (y & <- & Hy). now apply good_clip, H. }
  exists st', m', s'. split; [|exact Q]. etransitivity; [exact SAME|exact R].
Qed.
End Sign.
Lemma spoilt_by_overshoot : forall n nu gr ox co nt ta F c (m : model (N:=XR)) l g soot tar eig,
  let k := mkMechs nu gr ox co 1 in
  goodConfig P_MOMIC n nu co ta F c -> nu <> N_PAH -> co <> C_CONTINUUM -> constructEnum P_MOMIC n nu gr ox co nt ta (Fin F) c = Ok m ->
  (forall x, In x l -> goodStep P_MOMIC k (geometric c F n) n nt x) ->
  anySign P_MOMIC k (geometric c F n) n nt (mkStep g soot tar eig) -> 0 < el soot 0 -> (exists x, In x soot /\ x <= 0) ->
  exists st' m' s', runActions (None, m, newState n nt) (actionsOf l ++ [setTo g soot tar; ASrc eig]) = Ok (st', m', s') /\ nth_error (soots m') 0 = Some NaN.
Proof.
  intros n nu gr ox co nt ta F c m l g soot tar eig k GC NP NC E0 H (A & B & C & D & E) P0 (x & Hx & Lx). cbn [spGas spSoot spTar] in *.
  assert (Z : el (clip soot) 0 = el soot 0). { destruct soot as [|z soot]; [contradiction|]. unfold clip, el in *. cbn [map nth] in *. apply Rmax_right. lra. }
  destruct (C63_spoilt n nu gr ox co nt ta F c m l g (clip soot) tar eig GC NP NC E0 H A) as (st' & m' & s' & R & Q); auto.
  - now rewrite clip_len.
  - apply clip_nn.
  - now rewrite Z.
  - apply in_map_iff. exists x. split; [now apply Rmax_left|exact Hx].
  - exists st', m', s'. split; [|exact Q]. etransitivity; [|exact R].
    destruct (start _ _ _ _ _ _ _ _ _ _ _ GC E0) as (_ & OM & _ & I0). fold k in OM, I0.
    destruct (all_steps P_MOMIC k n nt F c OM l _ I0 H) as (((st1 & m1) & s1) & R1 & I1). destruct I1 as (_ & _ & _ & S1 & _).
    unfold runActions in *. rewrite !foldM_app. match goal with |- bind ?X _ = _ => replace X with (Ok (st1, m1, s1)) by (symmetry; exact R1) end. cbn [bind foldM].
    exact (f_equal (fun r => bind r _) (setTo_clip st1 m1 s1 g soot tar ltac:(congruence))).
Qed.
