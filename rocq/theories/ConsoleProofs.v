(** Proofs for C92: the warnings of the constructors. *)
From Coq Require Import ZArith List Bool Arith Lia.
From Verif Require Import Num Defs State Coag Nucl Growth Oxid Tar SootModel Calls Console SpecConfig SpecChem SpecConsole ConfigProofs SafeMain.
Import ListNotations.

Section ConsoleP.
Context {N : Num}.

Lemma build_same newed p ns (nu : nuclObj (N:=N)) gr ox co nt ta F c : snd (buildLogged newed p ns nu gr ox co nt ta F c) = build newed p ns nu gr ox co nt ta F c.
Proof. unfold buildLogged, build, lbind, say, silent. cbn [fst snd]. destruct (derivedCheck p ns (co_mech co) (ta_mech ta)); reflexivity. Qed.
Lemma enum_same p ns n g o c nt t F k : snd (constructEnumLogged (N:=N) p ns n g o c nt t F k) = constructEnum p ns n g o c nt t F k.
Proof.
  unfold constructEnumLogged, constructEnum, lbind, silent. cbn [fst snd].
  destruct (mkNuclEnum n) as [nu| |]; cbn [bind snd]; try reflexivity. destruct (mkGrowEnum g) as [gr| |]; cbn [bind snd]; try reflexivity.
  destruct (mkOxidEnum o) as [ox| |]; cbn [bind snd]; try reflexivity. destruct (mkCoagEnum c) as [co| |]; cbn [bind snd]; try reflexivity.
  destruct (mkTarEnum t) as [ta| |]; cbn [bind snd]; try reflexivity. apply build_same.
Qed.
Lemma build_says newed p ns (nu : nuclObj (N:=N)) gr ox co nt ta F c :
  fst (buildLogged newed p ns nu gr ox co nt ta F c) = checkSpec gr ox ++ match derivedCheck p ns (co_mech co) (ta_mech ta) with Ok _ => warnQMOM p ns | _ => [] end.
Proof.
  unfold buildLogged. unfold lbind at 1. cbn [say snd fst]. f_equal. unfold lbind at 1. cbn [silent snd fst]. destruct (derivedCheck p ns (co_mech co) (ta_mech ta)); cbn [fst app]; try reflexivity.
  unfold lbind. cbn [say silent snd fst]. apply app_nil_r.
Qed.
Lemma spec_haca (gr : growObj (N:=N)) ox : checkSpec gr ox = [] /\ ~ mispaired (gr_mech gr) (ox_mech ox) \/ checkSpec gr ox = [WarnHACA] /\ mispaired (gr_mech gr) (ox_mech ox).
Proof. unfold checkSpec, mispaired. destruct (gr_mech gr), (ox_mech ox); cbn [andb orb negb]; intuition congruence. Qed.
Lemma many_qmom p ns c t : match derivedCheck p ns c t with Ok _ => warnQMOM p ns | _ => [] end = [] /\ ~ (documented p ns c t /\ manyMoments p ns) \/
  match derivedCheck p ns c t with Ok _ => warnQMOM p ns | _ => [] end = [WarnQMOM] /\ documented p ns c t /\ manyMoments p ns.
Proof.
  pose proof (derivedCheck_spec p ns c t) as D. unfold manyMoments. destruct (derivedCheck p ns c t) as [[]|e|u].
  - apply proj1 in D. specialize (D eq_refl). unfold warnQMOM. destruct p; try (left; split; [reflexivity|]; intros (_ & Q & _); discriminate Q).
    destruct (Nat.ltb_spec 6 ns); [right|left; split; [reflexivity|]; intros (_ & _ & Q); lia]. split; [reflexivity|]. split; [exact D|]. split; [reflexivity|].
    inversion D. lia.
  - left. split; [reflexivity|]. intros (Q & _). apply D in Q. discriminate.
  - left. split; [reflexivity|]. intros (Q & _). apply D in Q. discriminate.
Qed.
Lemma ptr_l newed p ns (nu : nuclObj (N:=N)) gr ox co nt ta F c :
  says (mispaired (gr_mech gr) (ox_mech ox)) (documented p ns (co_mech co) (ta_mech ta) /\ manyMoments p ns) (fst (buildLogged newed p ns nu gr ox co nt ta F c)).
Proof.
  rewrite build_says. exists (checkSpec gr ox), (match derivedCheck p ns (co_mech co) (ta_mech ta) with Ok _ => warnQMOM p ns | _ => [] end). split; [reflexivity|].
  split; unfold once; [exact (spec_haca gr ox)|exact (many_qmom p ns (co_mech co) (ta_mech ta))].
Qed.
Lemma enum_l p ns n g o c nt t F k :
  says (realMechs n g o c t /\ mispaired g o) (realMechs n g o c t /\ documented p ns c t /\ manyMoments p ns) (fst (constructEnumLogged (N:=N) p ns n g o c nt t F k)).
Proof.
  assert (NO : forall P Q : Prop, ~ P -> ~ Q -> says P Q []) by (intros P Q HP HQ; exists [], []; unfold once; auto).
  unfold constructEnumLogged, lbind, silent. cbn [fst snd app].
  assert (E1 : n = N_size \/ mkNuclEnum (N:=N) n = Ok (newNucl n)) by (destruct n; auto).
  destruct E1 as [->|E1]; [cbn [mkNuclEnum fst]; apply NO; unfold realMechs; tauto|]. rewrite E1. cbn [fst].
  assert (E2 : g = G_size \/ mkGrowEnum (N:=N) g = Ok (newGrow g)) by (destruct g; auto).
  destruct E2 as [->|E2]; [cbn [mkGrowEnum fst]; apply NO; unfold realMechs; tauto|]. rewrite E2. cbn [fst].
  assert (E3 : o = O_size \/ mkOxidEnum (N:=N) o = Ok (newOxid o)) by (destruct o; auto).
  destruct E3 as [->|E3]; [cbn [mkOxidEnum fst]; apply NO; unfold realMechs; tauto|]. rewrite E3. cbn [fst].
  assert (E4 : c = C_size \/ mkCoagEnum c = Ok (newCoag c)) by (destruct c; auto).
  destruct E4 as [->|E4]; [cbn [mkCoagEnum fst]; apply NO; unfold realMechs; tauto|]. rewrite E4. cbn [fst].
  assert (E5 : t = T_size \/ mkTarEnum t = Ok (newTar t)) by (destruct t; auto).
  destruct E5 as [->|E5]; [cbn [mkTarEnum fst]; apply NO; unfold realMechs; tauto|]. rewrite E5. cbn [fst].
  assert (R : realMechs n g o c t).
  { unfold realMechs. repeat split; intros ->; [discriminate E1|discriminate E2|discriminate E3|discriminate E4|discriminate E5]. }
  pose proof (ptr_l true p ns (newNucl n) (newGrow g) (newOxid o) (newCoag c) nt (newTar t) F k) as (a & b & E & A & B).
  exists a, b. split; [exact E|].
  assert (F1 : gr_mech (newGrow (N:=N) g) = g) by (destruct g; reflexivity || (now destruct R as (_ & Q & _))).
  assert (F2 : mispaired g (ox_mech (newOxid (N:=N) o)) <-> mispaired g o) by (unfold mispaired; destruct o; cbn [ox_mech newOxid oxidTag]; intuition congruence).
  assert (F3 : co_mech (newCoag c) = c) by (destruct c; reflexivity). assert (F4 : ta_mech (newTar t) = t) by (destruct t; reflexivity).
  rewrite F1 in A. rewrite F3, F4 in B. unfold once in * . split; [clear - A R F2; destruct A; tauto|clear - B R; destruct B; tauto].
Qed.
Lemma quiet_l p ns n g o c nt t F k (m : model (N:=N)) : p = P_HMOM \/ p = P_MOMIC /\ ns = 8 -> ~ mispaired g o -> constructEnum p ns n g o c nt t F k = Ok m ->
  constructEnumLogged p ns n g o c nt t F k = ([], Ok m) /\ forall st eig s, setSourceTerms st eig m s = UB OutOfBounds.
Proof.
  intros Hp HM E. split.
  - pose proof (enum_same p ns n g o c nt t F k) as S1. pose proof (enum_l p ns n g o c nt t F k) as (a & b & E1 & A & B). rewrite E in S1.
    destruct (constructEnumLogged p ns n g o c nt t F k) as (w & r). cbn [fst snd] in *. subst r w. f_equal.
    destruct A as [(-> & _)|(_ & _ & Q)]; [|contradiction]. destruct B as [(-> & _)|(_ & _ & _ & Q & _)]; [reflexivity|]. destruct Hp as [->|(-> & _)]; discriminate Q.
  - intros st eig s. unfold constructEnum in E. do 5 (match type of E with bind ?r _ = _ => destruct r; try discriminate E; cbn [bind] in E end).
    destruct Hp as [->|(-> & ->)]; [eapply C41_; eauto|eapply C39_8; eauto].
Qed.
End ConsoleP.
