(** Specification vocabulary for the warnings of the constructors (C92). *)
From Coq Require Import List.
From Verif Require Import Defs Console.
Import ListNotations.

(** one of surface growth and oxidation by the HACA mechanism, the other not *)
Definition mispaired (g : growthMech) (o : oxidationMech) : Prop := g = G_HACA /\ o <> O_HACA \/ o = O_HACA /\ g <> G_HACA.
(** the quadrature method with eight or more moments *)
Definition manyMoments (p : psdMech) (ns : nat) : Prop := p = P_QMOM /\ 8 <= ns.
(** the warning is written once under its condition, and not otherwise *)
Definition once (w : warning) (C : Prop) (l : list warning) : Prop := l = [] /\ ~ C \/ l = [w] /\ C.
(** exactly these warnings, the one about HACA first *)
Definition says (haca qmom : Prop) (l : list warning) : Prop := exists a b, l = a ++ b /\ once WarnHACA haca a /\ once WarnQMOM qmom b.
