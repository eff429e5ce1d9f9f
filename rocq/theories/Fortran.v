(** The Fortran module: src/fortran_wraps/soot_module.f90, and the signatures of
    the C functions it binds to (src/fortran_wraps/c_interface.cc).

    Modelled: for each C function its result and parameter types and whether its
    body is a [new], a list of [delete]s or something else (what the others do is
    in CInterface.v); for each Fortran interface block how every argument is
    passed; for each wrapper its dummy arguments with their intents, the call it
    makes, the variable that receives a function's result and the pointers set to
    null afterwards; and the list of names the module exports.  Comments give the
    lines.  Not modelled: the shape of array arguments (an assumed-shape dummy
    handed to an assumed-size one passes the address of its first element,
    copying when the actual argument is not contiguous). *)
From Coq Require Import ZArith List Bool String.
Import ListNotations.
Local Open Scope string_scope.
Local Open Scope Z_scope.

(** classes a C pointer may point to, c_interface.cc 1-7 *)
Inductive obj := ONucl | OGrow | OOxid | OCoag | OTar | OModel | OState.

(** types of C parameters and results; [CEnum] stands for soot::gasSp and
    soot::pahSp (int-sized), [CDoubles] for [const double*] and [double*],
    [CVector] for [std::vector<double>&] *)
Inductive cty := CObj (o : obj) | CDouble | CInt | CSize | CEnum | CDoubles | CVector.

Inductive cbody := New (cls : string) (args : list string) | Delete (args : list string) | Use.

Record cfun := mkC { c_name : string; c_ret : option cty; c_params : list (string * cty); c_body : cbody }.

(** Fortran types: type(C_ptr), real(C_double) and double precision,
    integer(C_int), integer and integer(4), character; [FDoubles] for an array of
    doubles (dimension(:) in the wrappers) *)
Inductive fty := FPtr | FDouble | FInt | FChar | FDoubles.

(** [value] attribute, no attribute (the address is passed), dimension( * ) *)
Inductive passing := Value | Reference | Array.

Record fint := mkI { i_name : string; i_result : option fty; i_params : list (string * fty * passing) }.

Inductive intent := In_ | Out | InOut.

Record wrapper := mkW {
  w_name : string;
  w_dummies : list (string * fty * intent);
  w_callee : string;
  w_args : list string;
  w_assigned : option string;
  w_nulled : list string }.

(** c_interface.cc 24-392 (the line of each head is given) *)
Definition cFunctions : list cfun := [
  mkC "nucleationModel_LL_C_interface" (Some (CObj ONucl)) [] (New "nucleationModel_LL" []) (* 24 *);
  mkC "nucleationModel_LIN_C_interface" (Some (CObj ONucl)) [] (New "nucleationModel_LIN" []) (* 28 *);
  mkC "nucleationModel_LINA1_C_interface" (Some (CObj ONucl)) [] (New "nucleationModel_LINA1" []) (* 32 *);
  mkC "nucleationModel_PAH_C_interface" (Some (CObj ONucl)) [] (New "nucleationModel_PAH" []) (* 36 *);
  mkC "nucleationModel_MB_C_interface" (Some (CObj ONucl)) [] (New "nucleationModel_MB" []) (* 40 *);
  mkC "nucleationModel_FAIR_C_interface" (Some (CObj ONucl)) [] (New "nucleationModel_FAIR" []) (* 44 *);
  mkC "nucleationModel_AJ_RED_C_interface" (Some (CObj ONucl)) [] (New "nucleationModel_AJ_RED" []) (* 48 *);
  mkC "nucleationModel_BROWN_C_interface" (Some (CObj ONucl)) [] (New "nucleationModel_BROWN" []) (* 52 *);
  mkC "nucleationModel_NONE_C_interface" (Some (CObj ONucl)) [] (New "nucleationModel_NONE" []) (* 56 *);
  mkC "nucleation_delete_C_interface" None [("nucl_ptr", CObj ONucl)] (Delete ["nucl_ptr"]) (* 60 *);
  mkC "growthModel_LL_C_interface" (Some (CObj OGrow)) [] (New "growthModel_LL" []) (* 70 *);
  mkC "growthModel_LIN_C_interface" (Some (CObj OGrow)) [] (New "growthModel_LIN" []) (* 74 *);
  mkC "growthModel_HACA_C_interface" (Some (CObj OGrow)) [] (New "growthModel_HACA" []) (* 78 *);
  mkC "growthModel_MB_C_interface" (Some (CObj OGrow)) [] (New "growthModel_MB" []) (* 82 *);
  mkC "growthModel_FAIR_C_interface" (Some (CObj OGrow)) [] (New "growthModel_FAIR" []) (* 86 *);
  mkC "growthModel_NONE_C_interface" (Some (CObj OGrow)) [] (New "growthModel_NONE" []) (* 90 *);
  mkC "growth_delete_C_interface" None [("grow_ptr", CObj OGrow)] (Delete ["grow_ptr"]) (* 94 *);
  mkC "oxidationModel_LL_C_interface" (Some (CObj OOxid)) [] (New "oxidationModel_LL" []) (* 104 *);
  mkC "oxidationModel_LEE_NEOH_C_interface" (Some (CObj OOxid)) [] (New "oxidationModel_LEE_NEOH" []) (* 108 *);
  mkC "oxidationModel_NSC_NEOH_C_interface" (Some (CObj OOxid)) [] (New "oxidationModel_NSC_NEOH" []) (* 112 *);
  mkC "oxidationModel_HACA_C_interface" (Some (CObj OOxid)) [] (New "oxidationModel_HACA" []) (* 116 *);
  mkC "oxidationModel_OPTJ_C_interface" (Some (CObj OOxid)) [] (New "oxidationModel_OPTJ" []) (* 120 *);
  mkC "oxidationModel_OPTG_C_interface" (Some (CObj OOxid)) [] (New "oxidationModel_OPTG" []) (* 124 *);
  mkC "oxidationModel_MB_C_interface" (Some (CObj OOxid)) [] (New "oxidationModel_MB" []) (* 128 *);
  mkC "oxidationModel_FAIR_C_interface" (Some (CObj OOxid)) [] (New "oxidationModel_FAIR" []) (* 132 *);
  mkC "oxidationModel_AJ_RED_C_interface" (Some (CObj OOxid)) [] (New "oxidationModel_AJ_RED" []) (* 136 *);
  mkC "oxidationModel_BROWN_C_interface" (Some (CObj OOxid)) [] (New "oxidationModel_BROWN" []) (* 140 *);
  mkC "oxidationModel_NONE_C_interface" (Some (CObj OOxid)) [] (New "oxidationModel_NONE" []) (* 144 *);
  mkC "oxid_delete_C_interface" None [("oxid_ptr", CObj OOxid)] (Delete ["oxid_ptr"]) (* 148 *);
  mkC "coagulationModel_FM_C_interface" (Some (CObj OCoag)) [] (New "coagulationModel_FM" []) (* 158 *);
  mkC "coagulationModel_CONTINUUM_C_interface" (Some (CObj OCoag)) [] (New "coagulationModel_CONTINUUM" []) (* 162 *);
  mkC "coagulationModel_HM_C_interface" (Some (CObj OCoag)) [] (New "coagulationModel_HM" []) (* 166 *);
  mkC "coagulationModel_FUCHS_C_interface" (Some (CObj OCoag)) [] (New "coagulationModel_FUCHS" []) (* 170 *);
  mkC "coagulationModel_NONE_C_interface" (Some (CObj OCoag)) [] (New "coagulationModel_NONE" []) (* 174 *);
  mkC "set_FM_multiplier_C_interface" None [("coag_ptr", CObj OCoag); ("FM_multiplier_", CDouble)] Use (* 178 *);
  mkC "coag_delete_C_interface" None [("coag_ptr", CObj OCoag)] (Delete ["coag_ptr"]) (* 183 *);
  mkC "tarModel_NONE_C_interface" (Some (CObj OTar)) [] (New "tarModel_NONE" []) (* 193 *);
  mkC "tarModel_AJ_RED_C_interface" (Some (CObj OTar)) [] (New "tarModel_AJ_RED" []) (* 197 *);
  mkC "tarModel_BROWN_C_interface" (Some (CObj OTar)) [] (New "tarModel_BROWN" []) (* 201 *);
  mkC "tar_delete_C_interface" None [("tar_ptr", CObj OTar)] (Delete ["tar_ptr"]) (* 205 *);
  mkC "sootModel_MONO_C_interface" (Some (CObj OModel)) [("nsoot_", CSize); ("nucl_ptr", CObj ONucl);
      ("grow_ptr", CObj OGrow); ("oxid_ptr", CObj OOxid); ("coag_ptr", CObj OCoag); ("Ntar_", CSize);
      ("tar_ptr", CObj OTar)] (New "sootModel_MONO" ["nsoot_"; "nucl_ptr"; "grow_ptr"; "oxid_ptr";
      "coag_ptr"; "Ntar_"; "tar_ptr"]) (* 216 *);
  mkC "sootModel_delete_C_interface" None [("SM_ptr", CObj OModel); ("nucl_ptr", CObj ONucl);
      ("grow_ptr", CObj OGrow); ("oxid_ptr", CObj OOxid); ("coag_ptr", CObj OCoag);
      ("tar_ptr", CObj OTar)] (Delete ["SM_ptr"; "nucl_ptr"; "grow_ptr"; "oxid_ptr"; "coag_ptr"; "tar_ptr"]) (* 227 *);
  mkC "sootModel_QMOM_C_interface" (Some (CObj OModel)) [("nsoot_", CSize); ("nucl_ptr", CObj ONucl);
      ("grow_ptr", CObj OGrow); ("oxid_ptr", CObj OOxid); ("coag_ptr", CObj OCoag); ("Ntar_", CSize);
      ("tar_ptr", CObj OTar)] (New "sootModel_QMOM" ["nsoot_"; "nucl_ptr"; "grow_ptr"; "oxid_ptr";
      "coag_ptr"; "Ntar_"; "tar_ptr"]) (* 237 *);
  mkC "sootModel_LOGN_C_interface" (Some (CObj OModel)) [("nsoot_", CSize); ("nucl_ptr", CObj ONucl);
      ("grow_ptr", CObj OGrow); ("oxid_ptr", CObj OOxid); ("coag_ptr", CObj OCoag); ("Ntar_", CSize);
      ("tar_ptr", CObj OTar)] (New "sootModel_LOGN" ["nsoot_"; "nucl_ptr"; "grow_ptr"; "oxid_ptr";
      "coag_ptr"; "Ntar_"; "tar_ptr"]) (* 247 *);
  mkC "sootModel_MOMIC_C_interface" (Some (CObj OModel)) [("nsoot_", CSize); ("nucl_ptr", CObj ONucl);
      ("grow_ptr", CObj OGrow); ("oxid_ptr", CObj OOxid); ("coag_ptr", CObj OCoag); ("Ntar_", CSize);
      ("tar_ptr", CObj OTar)] (New "sootModel_MOMIC" ["nsoot_"; "nucl_ptr"; "grow_ptr"; "oxid_ptr";
      "coag_ptr"; "Ntar_"; "tar_ptr"]) (* 257 *);
  mkC "sootModel_SECT_C_interface" (Some (CObj OModel)) [("nsoot_", CSize); ("nucl_ptr", CObj ONucl);
      ("grow_ptr", CObj OGrow); ("oxid_ptr", CObj OOxid); ("coag_ptr", CObj OCoag); ("Ntar_", CSize);
      ("tar_ptr", CObj OTar)] (New "sootModel_SECT" ["nsoot_"; "nucl_ptr"; "grow_ptr"; "oxid_ptr";
      "coag_ptr"; "Ntar_"; "tar_ptr"]) (* 267 *);
  mkC "sootModel_HMOM_C_interface" (Some (CObj OModel)) [("nsoot_", CSize); ("nucl_ptr", CObj ONucl);
      ("grow_ptr", CObj OGrow); ("oxid_ptr", CObj OOxid); ("coag_ptr", CObj OCoag); ("Ntar_", CSize);
      ("tar_ptr", CObj OTar)] (New "sootModel_HMOM" ["nsoot_"; "nucl_ptr"; "grow_ptr"; "oxid_ptr";
      "coag_ptr"; "Ntar_"; "tar_ptr"]) (* 277 *);
  mkC "setSourceTerms_C_interface" None [("SM_ptr", CObj OModel); ("state_ptr", CObj OState)] Use (* 287 *);
  mkC "state_C_interface" (Some (CObj OState)) [("nsoot_", CSize); ("Ntar_", CSize)] (New "state" ["nsoot_";
      "Ntar_"]) (* 296 *);
  mkC "state_delete_C_interface" None [("state_ptr", CObj OState)] (Delete ["state_ptr"]) (* 300 *);
  mkC "setState_C_interface" None [("state_ptr", CObj OState); ("T_", CDouble); ("P_", CDouble);
      ("rhoGas_", CDouble); ("muGas_", CDouble); ("yGas_", CDoubles); ("yPAH_", CDoubles);
      ("sootVar_", CDoubles); ("nsoot_", CInt); ("tarVar_", CDoubles); ("Ntar_", CInt);
      ("cMin_", CDouble)] Use (* 304 *);
  mkC "getGasSpC_C_interface" (Some CDouble) [("state_ptr", CObj OState); ("sp", CEnum)] Use (* 316 *);
  mkC "getGasSpP_C_interface" (Some CDouble) [("state_ptr", CObj OState); ("sp", CEnum)] Use (* 320 *);
  mkC "getGasMeanFreePath_C_interface" (Some CDouble) [("state_ptr", CObj OState)] Use (* 324 *);
  mkC "get_pahSpC_C_interface" (Some CDouble) [("state_ptr", CObj OState); ("sp", CEnum)] Use (* 328 *);
  mkC "get_pahSpP_C_interface" (Some CDouble) [("state_ptr", CObj OState); ("sp", CEnum)] Use (* 332 *);
  mkC "setSootScales_C_interface" None [("state_ptr", CObj OState); ("sootScales_", CVector)] Use (* 336 *);
  mkC "getyBio_interface" None [("state_ptr", CObj OState); ("yBio_", CDoubles)] Use (* 340 *);
  mkC "get_mtar_ytar_interface" None [("state_ptr", CObj OState)] Use (* 345 *);
  mkC "get_T_interface" (Some CDouble) [("state_ptr", CObj OState)] Use (* 349 *);
  mkC "get_rhoGas_interface" (Some CDouble) [("state_ptr", CObj OState)] Use (* 353 *);
  mkC "get_yGas_interface" (Some CDouble) [("state_ptr", CObj OState); ("sp", CEnum)] Use (* 357 *);
  mkC "get_yPAH_interface" (Some CDouble) [("state_ptr", CObj OState); ("sp", CEnum)] Use (* 361 *);
  mkC "get_SootVar_interface" (Some CDouble) [("state_ptr", CObj OState); ("i", CInt)] Use (* 369 *);
  mkC "get_TarVar_interface" (Some CDouble) [("state_ptr", CObj OState); ("i", CInt)] Use (* 373 *);
  mkC "getSootSources_interface" None [("source", CDoubles); ("SM_ptr", CObj OModel); ("nsoot_", CInt)] Use (* 377 *);
  mkC "getGasSources_interface" None [("source", CDoubles); ("SM_ptr", CObj OModel)] Use (* 384 *);
  mkC "getTarSources_interface" None [("source", CDoubles); ("SM_ptr", CObj OModel); ("Ntar_", CInt)] Use (* 388 *)].

(** soot_module.f90 12-585 *)
Definition interfaces : list fint := [
  mkI "nucleationModel_LL_C_interface" (Some FPtr) [] (* 16-19 *);
  mkI "nucleationModel_LIN_C_interface" (Some FPtr) [] (* 23-26 *);
  mkI "nucleationModel_LINA1_C_interface" (Some FPtr) [] (* 30-33 *);
  mkI "nucleationModel_PAH_C_interface" (Some FPtr) [] (* 37-40 *);
  mkI "nucleationModel_MB_C_interface" (Some FPtr) [] (* 44-47 *);
  mkI "nucleationModel_FAIR_C_interface" (Some FPtr) [] (* 51-54 *);
  mkI "nucleationModel_AJ_RED_C_interface" (Some FPtr) [] (* 58-61 *);
  mkI "nucleationModel_BROWN_C_interface" (Some FPtr) [] (* 65-68 *);
  mkI "nucleationModel_NONE_C_interface" (Some FPtr) [] (* 72-75 *);
  mkI "nucleation_delete_C_interface" None [("nucl_ptr", FPtr, Value)] (* 79-82 *);
  mkI "growthModel_LL_C_interface" (Some FPtr) [] (* 86-89 *);
  mkI "growthModel_LIN_C_interface" (Some FPtr) [] (* 93-96 *);
  mkI "growthModel_HACA_C_interface" (Some FPtr) [] (* 100-103 *);
  mkI "growthModel_MB_C_interface" (Some FPtr) [] (* 107-110 *);
  mkI "growthModel_FAIR_C_interface" (Some FPtr) [] (* 114-117 *);
  mkI "growthModel_NONE_C_interface" (Some FPtr) [] (* 121-124 *);
  mkI "growth_delete_C_interface" None [("grow_ptr", FPtr, Value)] (* 128-131 *);
  mkI "oxidationModel_LL_C_interface" (Some FPtr) [] (* 135-138 *);
  mkI "oxidationModel_LEE_NEOH_C_interface" (Some FPtr) [] (* 142-145 *);
  mkI "oxidationModel_NSC_NEOH_C_interface" (Some FPtr) [] (* 149-152 *);
  mkI "oxidationModel_HACA_C_interface" (Some FPtr) [] (* 156-159 *);
  mkI "oxidationModel_OPTJ_C_interface" (Some FPtr) [] (* 163-166 *);
  mkI "oxidationModel_OPTG_C_interface" (Some FPtr) [] (* 170-173 *);
  mkI "oxidationModel_MB_C_interface" (Some FPtr) [] (* 177-180 *);
  mkI "oxidationModel_FAIR_C_interface" (Some FPtr) [] (* 184-187 *);
  mkI "oxidationModel_AJ_RED_C_interface" (Some FPtr) [] (* 191-194 *);
  mkI "oxidationModel_BROWN_C_interface" (Some FPtr) [] (* 198-201 *);
  mkI "oxidationModel_NONE_C_interface" (Some FPtr) [] (* 205-208 *);
  mkI "oxid_delete_C_interface" None [("oxid_ptr", FPtr, Value)] (* 212-215 *);
  mkI "coagulationModel_FM_C_interface" (Some FPtr) [] (* 219-222 *);
  mkI "coagulationModel_CONTINUUM_C_interface" (Some FPtr) [] (* 226-229 *);
  mkI "coagulationModel_HM_C_interface" (Some FPtr) [] (* 233-236 *);
  mkI "coagulationModel_FUCHS_C_interface" (Some FPtr) [] (* 240-243 *);
  mkI "coagulationModel_NONE_C_interface" (Some FPtr) [] (* 247-250 *);
  mkI "set_FM_multiplier_C_interface" None [("coag_ptr", FPtr, Value); ("FM_multiplier_", FDouble, Value)] (* 254-259 *);
  mkI "coag_delete_C_interface" None [("coag_ptr", FPtr, Value)] (* 263-266 *);
  mkI "tarModel_NONE_C_interface" (Some FPtr) [] (* 270-273 *);
  mkI "tarModel_AJ_RED_C_interface" (Some FPtr) [] (* 277-280 *);
  mkI "tarModel_BROWN_C_interface" (Some FPtr) [] (* 284-287 *);
  mkI "tar_delete_C_interface" None [("tar_ptr", FPtr, Reference)] (* 291-294 *);
  mkI "sootModel_MONO_C_interface" (Some FPtr) [("nsoot_", FInt, Value); ("nucl_ptr", FPtr, Value);
      ("grow_ptr", FPtr, Value); ("oxid_ptr", FPtr, Value); ("coag_ptr", FPtr, Value);
      ("Ntar_", FInt, Value); ("tar_ptr", FPtr, Value)] (* 298-309 *);
  mkI "sootModel_QMOM_C_interface" (Some FPtr) [("nsoot_", FInt, Value); ("nucl_ptr", FPtr, Value);
      ("grow_ptr", FPtr, Value); ("oxid_ptr", FPtr, Value); ("coag_ptr", FPtr, Value);
      ("Ntar_", FInt, Value); ("tar_ptr", FPtr, Value)] (* 313-324 *);
  mkI "sootModel_LOGN_C_interface" (Some FPtr) [("nsoot_", FInt, Value); ("nucl_ptr", FPtr, Value);
      ("grow_ptr", FPtr, Value); ("oxid_ptr", FPtr, Value); ("coag_ptr", FPtr, Value);
      ("Ntar_", FInt, Value); ("tar_ptr", FPtr, Value)] (* 328-339 *);
  mkI "sootModel_MOMIC_C_interface" (Some FPtr) [("nsoot_", FInt, Value); ("nucl_ptr", FPtr, Value);
      ("grow_ptr", FPtr, Value); ("oxid_ptr", FPtr, Value); ("coag_ptr", FPtr, Value);
      ("Ntar_", FInt, Value); ("tar_ptr", FPtr, Value)] (* 343-354 *);
  mkI "sootModel_SECT_C_interface" (Some FPtr) [("nsoot_", FInt, Value); ("nucl_ptr", FPtr, Value);
      ("grow_ptr", FPtr, Value); ("oxid_ptr", FPtr, Value); ("coag_ptr", FPtr, Value);
      ("Ntar_", FInt, Value); ("tar_ptr", FPtr, Value)] (* 358-369 *);
  mkI "sootModel_HMOM_C_interface" (Some FPtr) [("nsoot_", FInt, Value); ("nucl_ptr", FPtr, Value);
      ("grow_ptr", FPtr, Value); ("oxid_ptr", FPtr, Value); ("coag_ptr", FPtr, Value);
      ("Ntar_", FInt, Value); ("tar_ptr", FPtr, Value)] (* 373-384 *);
  mkI "sootModel_delete_C_interface" None [("SM_ptr", FPtr, Value); ("nucl_ptr", FPtr, Value);
      ("grow_ptr", FPtr, Value); ("oxid_ptr", FPtr, Value); ("coag_ptr", FPtr, Value);
      ("tar_ptr", FPtr, Value)] (* 388-397 *);
  mkI "setSourceTerms_C_interface" None [("SM_ptr", FPtr, Value); ("state_ptr", FPtr, Value)] (* 401-405 *);
  mkI "state_C_interface" (Some FPtr) [("nsoot_", FInt, Value); ("Ntar_", FInt, Value)] (* 409-414 *);
  mkI "state_delete_C_interface" None [("state_ptr", FPtr, Value)] (* 418-421 *);
  mkI "setState_C_interface" None [("state_ptr", FPtr, Value); ("T_", FDouble, Value);
      ("P_", FDouble, Value); ("rhoGas_", FDouble, Value); ("muGas_", FDouble, Value);
      ("yGas_", FDouble, Array); ("yPAH_", FDouble, Array); ("sootVar_", FDouble, Array);
      ("nsoot_", FInt, Value); ("tarVar_", FDouble, Array); ("Ntar_", FInt, Value);
      ("cMin_", FDouble, Value)] (* 425-441 *);
  mkI "getGasSpC_C_interface" None [("state_ptr", FPtr, Value); ("sp", FPtr, Value)] (* 445-449 *);
  mkI "getGasSpP_C_interface" None [("state_ptr", FPtr, Value); ("sp", FPtr, Value)] (* 453-457 *);
  mkI "getGasMeanFreePath_C_interface" None [("state_ptr", FPtr, Value)] (* 461-465 *);
  mkI "get_pahSpC_C_interface" None [("state_ptr", FPtr, Value); ("sp", FPtr, Value)] (* 469-473 *);
  mkI "get_pahSpP_C_interface" None [("state_ptr", FPtr, Value); ("sp", FPtr, Value)] (* 477-481 *);
  mkI "setSootScales_C_interface" None [("state_ptr", FPtr, Value); ("sootScales_", FDouble, Array)] (* 485-490 *);
  mkI "getyBio_interface" None [("state_ptr", FPtr, Value); ("yBio_", FDouble, Array)] (* 494-498 *);
  mkI "get_mtar_ytar_interface" None [("state_ptr", FPtr, Value)] (* 502-505 *);
  mkI "get_T_interface" None [("state_ptr", FPtr, Value)] (* 509-512 *);
  mkI "get_rhoGas_interface" None [("state_ptr", FPtr, Value)] (* 516-519 *);
  mkI "get_yGas_interface" None [("state_ptr", FPtr, Value); ("sp", FChar, Reference)] (* 523-527 *);
  mkI "get_yPAH_interface" None [("state_ptr", FPtr, Value); ("sp", FChar, Reference)] (* 531-535 *);
  mkI "get_SootVar_interface" None [("state_ptr", FPtr, Value); ("i", FInt, Value)] (* 547-551 *);
  mkI "get_TarVar_interface" None [("state_ptr", FPtr, Value); ("i", FInt, Value)] (* 555-559 *);
  mkI "getSootSources_interface" None [("source", FDouble, Array); ("SM_ptr", FPtr, Value);
      ("nsoot_", FInt, Value)] (* 563-568 *);
  mkI "getGasSources_interface" None [("source", FDouble, Array); ("SM_ptr", FPtr, Value)] (* 572-576 *);
  mkI "getTarSources_interface" None [("source", FDouble, Array); ("SM_ptr", FPtr, Value);
      ("Ntar_", FInt, Value)] (* 578-583 *)].

(** soot_module.f90 603-1194 *)
Definition wrappers : list wrapper := [
  mkW "nucleationModel_LL" [("nucl_ptr", FPtr, Out)] "nucleationModel_LL_C_interface" [] (Some "nucl_ptr") [] (* 607-610 *);
  mkW "nucleationModel_LIN" [("nucl_ptr", FPtr, Out)] "nucleationModel_LIN_C_interface" [] (Some "nucl_ptr") [] (* 614-617 *);
  mkW "nucleationModel_LINA1" [("nucl_ptr", FPtr, Out)] "nucleationModel_LINA1_C_interface" [] (Some "nucl_ptr") [] (* 621-624 *);
  mkW "nucleationModel_PAH" [("nucl_ptr", FPtr, Out)] "nucleationModel_PAH_C_interface" [] (Some "nucl_ptr") [] (* 628-631 *);
  mkW "nucleationModel_MB" [("nucl_ptr", FPtr, Out)] "nucleationModel_MB_C_interface" [] (Some "nucl_ptr") [] (* 635-638 *);
  mkW "nucleationModel_FAIR" [("nucl_ptr", FPtr, Out)] "nucleationModel_FAIR_C_interface" [] (Some "nucl_ptr") [] (* 642-645 *);
  mkW "nucleationModel_AJ_RED" [("nucl_ptr", FPtr, Out)] "nucleationModel_AJ_RED_C_interface" [] (Some "nucl_ptr") [] (* 649-652 *);
  mkW "nucleationModel_BROWN" [("nucl_ptr", FPtr, Out)] "nucleationModel_BROWN_C_interface" [] (Some "nucl_ptr") [] (* 656-659 *);
  mkW "nucleationModel_NONE" [("nucl_ptr", FPtr, Out)] "nucleationModel_NONE_C_interface" [] (Some "nucl_ptr") [] (* 663-666 *);
  mkW "nucleation_delete" [("nucl_ptr", FPtr, InOut)] "nucleation_delete_C_interface" ["nucl_ptr"] None ["nucl_ptr"] (* 670-674 *);
  mkW "growthModel_LL" [("grow_ptr", FPtr, Out)] "growthModel_LL_C_interface" [] (Some "grow_ptr") [] (* 678-681 *);
  mkW "growthModel_LIN" [("grow_ptr", FPtr, Out)] "growthModel_LIN_C_interface" [] (Some "grow_ptr") [] (* 685-688 *);
  mkW "growthModel_HACA" [("grow_ptr", FPtr, Out)] "growthModel_HACA_C_interface" [] (Some "grow_ptr") [] (* 692-695 *);
  mkW "growthModel_MB" [("grow_ptr", FPtr, Out)] "growthModel_MB_C_interface" [] (Some "grow_ptr") [] (* 699-702 *);
  mkW "growthModel_FAIR" [("grow_ptr", FPtr, Out)] "growthModel_FAIR_C_interface" [] (Some "grow_ptr") [] (* 706-709 *);
  mkW "growthModel_NONE" [("grow_ptr", FPtr, Out)] "growthModel_NONE_C_interface" [] (Some "grow_ptr") [] (* 713-716 *);
  mkW "growth_delete" [("grow_ptr", FPtr, InOut)] "growth_delete_C_interface" ["grow_ptr"] None ["grow_ptr"] (* 720-724 *);
  mkW "oxidationModel_LL" [("oxid_ptr", FPtr, Out)] "oxidationModel_LL_C_interface" [] (Some "oxid_ptr") [] (* 728-731 *);
  mkW "oxidationModel_LEE_NEOH" [("oxid_ptr", FPtr, Out)] "oxidationModel_LEE_NEOH_C_interface" [] (Some "oxid_ptr") [] (* 735-738 *);
  mkW "oxidationModel_NSC_NEOH" [("oxid_ptr", FPtr, Out)] "oxidationModel_NSC_NEOH_C_interface" [] (Some "oxid_ptr") [] (* 742-745 *);
  mkW "oxidationModel_HACA" [("oxid_ptr", FPtr, Out)] "oxidationModel_HACA_C_interface" [] (Some "oxid_ptr") [] (* 749-752 *);
  mkW "oxidationModel_OPTJ" [("oxid_ptr", FPtr, Out)] "oxidationModel_OPTJ_C_interface" [] (Some "oxid_ptr") [] (* 756-759 *);
  mkW "oxidationModel_OPTG" [("oxid_ptr", FPtr, Out)] "oxidationModel_OPTG_C_interface" [] (Some "oxid_ptr") [] (* 763-766 *);
  mkW "oxidationModel_MB" [("oxid_ptr", FPtr, Out)] "oxidationModel_MB_C_interface" [] (Some "oxid_ptr") [] (* 770-773 *);
  mkW "oxidationModel_FAIR" [("oxid_ptr", FPtr, Out)] "oxidationModel_FAIR_C_interface" [] (Some "oxid_ptr") [] (* 777-780 *);
  mkW "oxidationModel_AJ_RED" [("oxid_ptr", FPtr, Out)] "oxidationModel_AJ_RED_C_interface" [] (Some "oxid_ptr") [] (* 784-787 *);
  mkW "oxidationModel_BROWN" [("oxid_ptr", FPtr, Out)] "oxidationModel_BROWN_C_interface" [] (Some "oxid_ptr") [] (* 791-794 *);
  mkW "oxidationModel_NONE" [("oxid_ptr", FPtr, Out)] "oxidationModel_NONE_C_interface" [] (Some "oxid_ptr") [] (* 798-801 *);
  mkW "oxid_delete" [("oxid_ptr", FPtr, InOut)] "oxid_delete_C_interface" ["oxid_ptr"] None ["oxid_ptr"] (* 805-809 *);
  mkW "coagulationModel_FM" [("coag_ptr", FPtr, Out)] "coagulationModel_FM_C_interface" [] (Some "coag_ptr") [] (* 813-816 *);
  mkW "coagulationModel_CONTINUUM" [("coag_ptr", FPtr, Out)] "coagulationModel_CONTINUUM_C_interface" [] (Some "coag_ptr") [] (* 820-823 *);
  mkW "coagulationModel_HM" [("coag_ptr", FPtr, Out)] "coagulationModel_HM_C_interface" [] (Some "coag_ptr") [] (* 827-830 *);
  mkW "coagulationModel_FUCHS" [("coag_ptr", FPtr, Out)] "coagulationModel_FUCHS_C_interface" [] (Some "coag_ptr") [] (* 834-837 *);
  mkW "coagulationModel_NONE" [("coag_ptr", FPtr, Out)] "coagulationModel_NONE_C_interface" [] (Some "coag_ptr") [] (* 841-844 *);
  mkW "set_FM_multiplier" [("coag_ptr", FPtr, In_);
      ("FM_multiplier_", FDouble, In_)] "set_FM_multiplier_C_interface" ["coag_ptr";
      "FM_multiplier_"] None [] (* 848-853 *);
  mkW "coag_delete" [("coag_ptr", FPtr, InOut)] "coag_delete_C_interface" ["coag_ptr"] None ["coag_ptr"] (* 857-861 *);
  mkW "tarModel_NONE" [("tar_ptr", FPtr, Out)] "tarModel_NONE_C_interface" [] (Some "tar_ptr") [] (* 865-868 *);
  mkW "tarModel_AJ_RED" [("tar_ptr", FPtr, Out)] "tarModel_AJ_RED_C_interface" [] (Some "tar_ptr") [] (* 872-875 *);
  mkW "tarModel_BROWN" [("tar_ptr", FPtr, Out)] "tarModel_BROWN_C_interface" [] (Some "tar_ptr") [] (* 879-882 *);
  mkW "tar_delete" [("tar_ptr", FPtr, InOut)] "tar_delete_C_interface" ["tar_ptr"] None ["tar_ptr"] (* 886-890 *);
  mkW "sootModel_MONO" [("SM_ptr", FPtr, Out); ("nsoot_", FInt, In_); ("nucl_ptr", FPtr, In_);
      ("grow_ptr", FPtr, In_); ("oxid_ptr", FPtr, In_); ("coag_ptr", FPtr, In_); ("Ntar_", FInt, In_);
      ("tar_ptr", FPtr, In_)] "sootModel_MONO_C_interface" ["nsoot_"; "nucl_ptr"; "grow_ptr"; "oxid_ptr";
      "coag_ptr"; "Ntar_"; "tar_ptr"] (Some "SM_ptr") [] (* 894-905 *);
  mkW "sootModel_delete" [("SM_ptr", FPtr, InOut); ("nucl_ptr", FPtr, InOut); ("grow_ptr", FPtr, InOut);
      ("oxid_ptr", FPtr, InOut); ("coag_ptr", FPtr, InOut);
      ("tar_ptr", FPtr, InOut)] "sootModel_delete_C_interface" ["SM_ptr"; "nucl_ptr"; "grow_ptr"; "oxid_ptr";
      "coag_ptr"; "tar_ptr"] None ["SM_ptr"; "nucl_ptr"; "grow_ptr"; "oxid_ptr"; "coag_ptr"; "tar_ptr"] (* 909-925 *);
  mkW "sootModel_QMOM" [("SM_ptr", FPtr, Out); ("nsoot_", FInt, In_); ("nucl_ptr", FPtr, In_);
      ("grow_ptr", FPtr, In_); ("oxid_ptr", FPtr, In_); ("coag_ptr", FPtr, In_); ("Ntar_", FInt, In_);
      ("tar_ptr", FPtr, In_)] "sootModel_QMOM_C_interface" ["nsoot_"; "nucl_ptr"; "grow_ptr"; "oxid_ptr";
      "coag_ptr"; "Ntar_"; "tar_ptr"] (Some "SM_ptr") [] (* 929-940 *);
  mkW "sootModel_LOGN" [("SM_ptr", FPtr, Out); ("nsoot_", FInt, In_); ("nucl_ptr", FPtr, In_);
      ("grow_ptr", FPtr, In_); ("oxid_ptr", FPtr, In_); ("coag_ptr", FPtr, In_); ("Ntar_", FInt, In_);
      ("tar_ptr", FPtr, In_)] "sootModel_LOGN_C_interface" ["nsoot_"; "nucl_ptr"; "grow_ptr"; "oxid_ptr";
      "coag_ptr"; "Ntar_"; "tar_ptr"] (Some "SM_ptr") [] (* 944-955 *);
  mkW "sootModel_MOMIC" [("SM_ptr", FPtr, Out); ("nsoot_", FInt, In_); ("nucl_ptr", FPtr, In_);
      ("grow_ptr", FPtr, In_); ("oxid_ptr", FPtr, In_); ("coag_ptr", FPtr, In_); ("Ntar_", FInt, In_);
      ("tar_ptr", FPtr, In_)] "sootModel_MOMIC_C_interface" ["nsoot_"; "nucl_ptr"; "grow_ptr"; "oxid_ptr";
      "coag_ptr"; "Ntar_"; "tar_ptr"] (Some "SM_ptr") [] (* 959-970 *);
  mkW "sootModel_SECT" [("SM_ptr", FPtr, Out); ("nsoot_", FInt, In_); ("nucl_ptr", FPtr, In_);
      ("grow_ptr", FPtr, In_); ("oxid_ptr", FPtr, In_); ("coag_ptr", FPtr, In_); ("Ntar_", FInt, In_);
      ("tar_ptr", FPtr, In_)] "sootModel_SECT_C_interface" ["nsoot_"; "nucl_ptr"; "grow_ptr"; "oxid_ptr";
      "coag_ptr"; "Ntar_"; "tar_ptr"] (Some "SM_ptr") [] (* 974-985 *);
  mkW "sootModel_HMOM" [("SM_ptr", FPtr, Out); ("nsoot_", FInt, In_); ("nucl_ptr", FPtr, In_);
      ("grow_ptr", FPtr, In_); ("oxid_ptr", FPtr, In_); ("coag_ptr", FPtr, In_); ("Ntar_", FInt, In_);
      ("tar_ptr", FPtr, In_)] "sootModel_HMOM_C_interface" ["nsoot_"; "nucl_ptr"; "grow_ptr"; "oxid_ptr";
      "coag_ptr"; "Ntar_"; "tar_ptr"] (Some "SM_ptr") [] (* 989-1000 *);
  mkW "state" [("state_ptr", FPtr, Out); ("nsoot_", FInt, In_);
      ("Ntar_", FInt, In_)] "state_C_interface" ["nsoot_"; "Ntar_"] (Some "state_ptr") [] (* 1004-1010 *);
  mkW "state_delete" [("state_ptr", FPtr, InOut)] "state_delete_C_interface" ["state_ptr"] None ["state_ptr"] (* 1014-1018 *);
  mkW "setState" [("state_ptr", FPtr, In_); ("T_", FDouble, In_); ("P_", FDouble, In_);
      ("rhoGas_", FDouble, In_); ("muGas_", FDouble, In_); ("yGas_", FDoubles, In_);
      ("yPAH_", FDoubles, In_); ("sootVar_", FDoubles, In_); ("nsoot_", FInt, In_);
      ("tarVar_", FDoubles, In_); ("Ntar_", FInt, In_);
      ("cMin_", FDouble, In_)] "setState_C_interface" ["state_ptr"; "T_"; "P_"; "rhoGas_"; "muGas_"; "yGas_";
      "yPAH_"; "sootVar_"; "nsoot_"; "tarVar_"; "Ntar_"; "cMin_"] None [] (* 1022-1039 *);
  mkW "get_mtar_ytar" [("state_ptr", FPtr, In_)] "get_mtar_ytar_interface" ["state_ptr"] None [] (* 1043-1047 *);
  mkW "setSourceTerms" [("SM_ptr", FPtr, Out);
      ("state_ptr", FPtr, In_)] "setSourceTerms_C_interface" ["SM_ptr"; "state_ptr"] None [] (* 1051-1056 *);
  mkW "getGasSpC" [("state_ptr", FPtr, Out); ("sp", FPtr, In_)] "getGasSpC_C_interface" ["state_ptr";
      "sp"] None [] (* 1060-1065 *);
  mkW "getGasSpP" [("state_ptr", FPtr, Out); ("sp", FPtr, In_)] "getGasSpP_C_interface" ["state_ptr";
      "sp"] None [] (* 1069-1074 *);
  mkW "getGasMeanFreePath" [("state_ptr", FPtr, Out)] "getGasMeanFreePath_C_interface" ["state_ptr"] None [] (* 1078-1081 *);
  mkW "get_pahSpC" [("state_ptr", FPtr, Out); ("sp", FPtr, In_)] "get_pahSpC_C_interface" ["state_ptr";
      "sp"] None [] (* 1085-1089 *);
  mkW "get_pahSpP" [("state_ptr", FPtr, Out); ("sp", FPtr, In_)] "get_pahSpP_C_interface" ["state_ptr";
      "sp"] None [] (* 1093-1097 *);
  mkW "setSootScales" [("state_ptr", FPtr, Out);
      ("sootScales_", FDoubles, In_)] "setSootScales_C_interface" ["state_ptr"; "sootScales_"] None [] (* 1101-1105 *);
  mkW "get_T" [("state_ptr", FPtr, In_)] "get_T_interface" ["state_ptr"] None [] (* 1109-1112 *);
  mkW "get_rhoGas" [("state_ptr", FPtr, In_)] "get_rhoGas_interface" ["state_ptr"] None [] (* 1116-1119 *);
  mkW "get_yGas" [("state_ptr", FPtr, In_); ("sp", FChar, In_)] "get_yGas_interface" ["state_ptr";
      "sp"] None [] (* 1123-1127 *);
  mkW "get_yPAH" [("state_ptr", FPtr, In_); ("sp", FChar, In_)] "get_yPAH_interface" ["state_ptr";
      "sp"] None [] (* 1131-1135 *);
  mkW "getyBio" [("state_ptr", FPtr, In_); ("yBio_", FDoubles, In_)] "getyBio_interface" ["state_ptr";
      "yBio_"] None [] (* 1147-1151 *);
  mkW "get_SootVar" [("state_ptr", FPtr, In_); ("i", FInt, In_)] "get_SootVar_interface" ["state_ptr";
      "i"] None [] (* 1155-1159 *);
  mkW "get_TarVar" [("state_ptr", FPtr, In_); ("i", FInt, In_)] "get_TarVar_interface" ["state_ptr";
      "i"] None [] (* 1163-1167 *);
  mkW "getSootSources" [("source", FDoubles, Out); ("SM_ptr", FPtr, In_);
      ("nsoot_", FInt, In_)] "getSootSources_interface" ["source"; "SM_ptr"; "nsoot_"] None [] (* 1171-1178 *);
  mkW "getGasSources" [("source", FDoubles, Out); ("SM_ptr", FPtr, In_)] "getGasSources_interface" ["source";
      "SM_ptr"] None [] (* 1181-1186 *);
  mkW "getTarSources" [("source", FDoubles, Out); ("SM_ptr", FPtr, In_);
      ("Ntar_", FInt, In_)] "getTarSources_interface" ["source"; "SM_ptr"; "Ntar_"] None [] (* 1188-1194 *)].

(** the [public] statement, soot_module.f90 588-601; everything else is [private] (line 7) *)
Definition exported : list string :=
  ["nucleationModel_LL"; "nucleationModel_LIN"; "growthModel_LL"; "growthModel_LIN"; "nucleation_delete";
   "growth_delete"; "oxidationModel_LL"; "oxid_delete"; "coagulationModel_FM"; "set_FM_multiplier";
   "coag_delete"; "tarModel_NONE"; "tar_delete"; "sootModel_MONO"; "sootModel_delete"; "sootModel_QMOM";
   "setSourceTerms"; "state"; "state_delete"; "setState"; "getGasSpC"; "getGasSpP"; "getGasMeanFreePath";
   "get_pahSpC"; "get_pahSpP"; "setSootScales"; "get_T"; "get_rhoGas"; "get_yGas"; "get_yPAH"; "getyBio";
   "get_SootVar"; "get_TarVar"; "getSootSources"; "nucleationModel_LINA1"; "nucleationModel_MB";
   "nucleationModel_PAH"; "nucleationModel_FAIR"; "nucleationModel_AJ_RED"; "nucleationModel_NONE";
   "growthModel_HACA"; "growthModel_MB"; "growthModel_FAIR"; "growthModel_NONE"; "oxidationModel_LEE_NEOH";
   "oxidationModel_NSC_NEOH"; "oxidationModel_HACA"; "oxidationModel_OPTJ"; "oxidationModel_OPTG";
   "oxidationModel_MB"; "oxidationModel_FAIR"; "oxidationModel_AJ_RED"; "oxidationModel_NONE";
   "coagulationModel_CONTINUUM"; "coagulationModel_HM"; "coagulationModel_FUCHS"; "coagulationModel_NONE";
   "sootModel_LOGN"; "sootModel_MOMIC"; "sootModel_SECT"; "sootModel_HMOM"; "get_mtar_ytar";
   "tarModel_BROWN"; "nucleationModel_BROWN"; "oxidationModel_BROWN"; "getGasSources"; "getTarSources"].

(** ** Calls *)
Section Calls.
Context {D : Type}.

(** contents of Fortran variables *)
Inductive fval := FvPtr (p : Z) | FvDouble (d : D) | FvInt (z : Z) | FvChar (c : Z) | FvDoubles (l : list D) | FvUndef.

(** what arrives in the place of an argument: the content of a variable, or its address *)
Inductive word := WVal (v : fval) | WAddr (x : string) | WArray (x : string).

(** what the C function sees; [CvArray x]: the address of the first element of
    the caller's array [x] *)
Inductive cval := CvPtr (p : Z) | CvDouble (d : D) | CvInt (z : Z) | CvArray (x : string).

(** Two things left open by the language standards and calling conventions:
    whether a pointer passed to an [intent(out)] dummy keeps its content on entry,
    and what stands in the upper half of a 64-bit register in which a 32-bit
    integer is passed. *)
Record platform := mkPlat { keepsOut : bool; upperHalf : Z }.

Definition store := string -> fval.

(** a scalar [intent(out)] dummy becomes undefined on entry *)
Definition entry (pl : platform) (w : wrapper) (st : store) : store := fun x =>
  match find (fun d => String.eqb (fst (fst d)) x) (w_dummies w) with
  | Some (_, FDoubles, _) => st x
  | Some (_, _, Out) => if keepsOut pl then st x else FvUndef
  | _ => st x
  end.

Definition pass (how : passing) (x : string) (st : store) : word :=
  match how with
  | Value => WVal (st x)
  | Reference => WAddr x
  | Array => WArray x
  end.

(** what a C function finds in a parameter of type [t]; [None]: something else
    than an object of that type (undefined behaviour when used) *)
Definition receive (pl : platform) (t : cty) (w : word) : option cval :=
  match t, w with
  | CObj _, WVal (FvPtr p) => Some (CvPtr p)
  | CDouble, WVal (FvDouble d) => Some (CvDouble d)
  | CInt, WVal (FvInt z) => Some (CvInt z)
  | CEnum, WVal (FvInt z) => Some (CvInt z)
  | CSize, WVal (FvInt z) => Some (CvInt (z mod 2 ^ 32 + 2 ^ 32 * upperHalf pl))
  | CDoubles, WArray x => Some (CvArray x)
  | _, _ => None
  end.

Definition ofResult (r : cval) : fval :=
  match r with
  | CvPtr p => FvPtr p
  | CvDouble d => FvDouble d
  | CvInt z => FvInt z
  | CvArray _ => FvUndef
  end.

Definition put (x : string) (v : fval) (st : store) : store :=
  fun y => if String.eqb y x then v else st y.

(** parameters, passing and actual arguments are matched by position; [None]: the
    numbers differ *)
Fixpoint deliver (pl : platform) (ps : list (string * cty)) (fs : list (string * fty * passing)) (xs : list string)
    (st : store) : option (list (option cval)) :=
  match ps, fs, xs with
  | [], [], [] => Some []
  | (_, t) :: ps, (_, _, how) :: fs, x :: xs =>
      option_map (cons (receive pl t (pass how x st))) (deliver pl ps fs xs st)
  | _, _, _ => None
  end.

(** A call of wrapper [w] with actual arguments [st] (by dummy name), where the C
    function returns [r] (when it returns something): the C function reached, what
    it receives, and the caller's variables afterwards.  A result is assigned only
    if the interface declares a function. *)
Definition callFortran (pl : platform) (w : wrapper) (st : store) (r : cval) :
    option (cfun * list (option cval) * store) :=
  match find (fun i => String.eqb (i_name i) (w_callee w)) interfaces,
        find (fun f => String.eqb (c_name f) (w_callee w)) cFunctions with
  | Some i, Some f =>
      let st0 := entry pl w st in
      match deliver pl (c_params f) (i_params i) (w_args w) st0 with
      | Some got =>
          let st1 := match i_result i, c_ret f, w_assigned w with
                     | Some _, Some _, Some x => put x (ofResult r) st0
                     | _, _, _ => st0
                     end in
          Some (f, got, fold_right (fun x s => put x (FvPtr 0) s) st1 (w_nulled w))
      | None => None
      end
  | _, _ => None
  end.

End Calls.
Arguments fval : clear implicits.
Arguments cval : clear implicits.
Arguments store : clear implicits.
