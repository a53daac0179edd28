(** The Python classes: resources/python/src/nuSQUIDSpy.h:199-440 and nuSQUIDSpy.cpp. What is modelled: which C++ member each
    Python method is bound to, how a call picks among overloads (boost.python tries the last registered first and takes the
    first whose arguments convert), the wrappers for the steppers of GSL, the conversion of sequences to std::vector<bool>
    (nuSQUIDSpy.cpp:27-55) and the wrappers of EvalFlavor with that vector (57-66). Classes of the SQuIDS library are left out.
    boost.python is taken by its contract. *)
From Coq Require Import List Arith Bool Reals String.
From Verif Require Import Err PyModel.
Import ListNotations.
Local Open Scope string_scope.

(** ** Methods: name in Python, member in C++ *)
(** nuSQUIDSpy.h:279-357 *)
Definition py_nuSQUIDS : list (string * string) := [
  ("Set_initial_state", "Set_initial_state"); ("Set_initial_state", "Set_initial_state");
  ("Set_initial_state", "Set_initial_state"); ("Set_Body", "Set_Body"); ("Set_Track", "Set_Track"); ("Set_E", "Set_E");
  ("EvolveState", "EvolveState"); ("GetERange", "GetERange"); ("WriteStateHDF5", "WriteStateHDF5");
  ("ReadStateHDF5", "ReadStateHDF5"); ("GetNumNeu", "GetNumNeu"); ("EvalMass", "EvalMass"); ("EvalMass", "EvalMass");
  ("EvalFlavor", "EvalFlavor"); ("EvalMass", "EvalMass"); ("EvalFlavor", "EvalFlavor"); ("EvalFlavor", "EvalFlavor");
  ("EvalMassAtNode", "EvalMassAtNode"); ("EvalFlavorAtNode", "EvalFlavorAtNode"); ("GetHamiltonian", "GetHamiltonian");
  ("GetState", "GetState"); ("GetState", "GetState"); ("Set_EvolLowPassCutoff", "Set_EvolLowPassCutoff");
  ("Set_EvolLowPassScale", "Set_EvolLowPassScale"); ("Set_h_min", "Set_h_min"); ("Set_h_max", "Set_h_max"); ("Set_h", "Set_h");
  ("Set_rel_error", "Set_rel_error"); ("Set_abs_error", "Set_abs_error"); ("Set_AdaptiveStep", "Set_AdaptiveStep");
  ("Set_GSL_step", "wrap_Set_GSL_STEP"); ("Set_TauRegeneration", "Set_TauRegeneration");
  ("Set_GlashowResonance", "Set_GlashowResonance"); ("Set_IncludeOscillations", "Set_IncludeOscillations");
  ("Set_AllowConstantDensityOscillationOnlyEvolution", "Set_AllowConstantDensityOscillationOnlyEvolution");
  ("Set_PositivityConstrain", "Set_PositivityConstrain"); ("Set_PositivityConstrainStep", "Set_PositivityConstrainStep");
  ("Set_ProgressBar", "Set_ProgressBar"); ("Set_MixingParametersToDefault", "Set_MixingParametersToDefault");
  ("Set_Basis", "Set_Basis"); ("Set_MixingAngle", "Set_MixingAngle"); ("Get_MixingAngle", "Get_MixingAngle");
  ("Set_CPPhase", "Set_CPPhase"); ("Get_CPPhase", "Get_CPPhase"); ("Set_SquareMassDifference", "Set_SquareMassDifference");
  ("Get_SquareMassDifference", "Get_SquareMassDifference"); ("GetERange", "GetERange"); ("GetTrack", "GetTrack");
  ("GetBody", "GetBody"); ("GetNumE", "GetNumE"); ("GetNumRho", "GetNumRho"); ("GetUseInteractions", "GetUseInteractions");
  ("GetUseOscillations", "GetUseOscillations"); ("InitializeInteractions", "InitializeInteractions");
  ("GetInteractionStructure", "GetInteractionStructure"); ("GetHamiltonian", "GetHamiltonian");
  ("GetTransformationMatrix", "GetTransformationMatrix"); ("GetNeutrinoCrossSections", "GetNeutrinoCrossSections");
  ("SetNeutrinoCrossSections", "SetNeutrinoCrossSections"); ("Set_Debug", "Set_Debug");
  ("Set_IncludeOscillations", "Set_IncludeOscillations"); ("Set_GlashowResonance", "Set_GlashowResonance");
  ("Set_NeutrinoSources", "Set_NeutrinoSources"); ("Get_NeutrinoSources", "Get_NeutrinoSources")
].
(** nuSQUIDSpy.h:374-434 *)
Definition py_nuSQUIDSAtm : list (string * string) := [
  ("EvolveState", "EvolveState"); ("Set_TauRegeneration", "Set_TauRegeneration"); ("EvalFlavor", "EvalFlavor");
  ("Set_EvalThreads", "Set_EvalThreads"); ("Get_EvalThreads", "Get_EvalThreads"); ("Set_EarthModel", "Set_EarthModel");
  ("WriteStateHDF5", "WriteStateHDF5"); ("ReadStateHDF5", "ReadStateHDF5"); ("Set_MixingAngle", "Set_MixingAngle");
  ("Get_MixingAngle", "Get_MixingAngle"); ("Set_CPPhase", "Set_CPPhase"); ("Get_CPPhase", "Get_CPPhase");
  ("Set_SquareMassDifference", "Set_SquareMassDifference"); ("Get_SquareMassDifference", "Get_SquareMassDifference");
  ("Set_h", "Set_h"); ("Set_h", "Set_h"); ("Set_h_max", "Set_h_max"); ("Set_h_max", "Set_h_max"); ("Set_h_min", "Set_h_min");
  ("Set_h_min", "Set_h_min"); ("Set_ProgressBar", "Set_ProgressBar");
  ("Set_MixingParametersToDefault", "Set_MixingParametersToDefault"); ("Set_GSL_step", "wrap_nusqatm_Set_GSL_STEP");
  ("Set_rel_error", "Set_rel_error"); ("Set_rel_error", "Set_rel_error"); ("Set_abs_error", "Set_abs_error");
  ("Set_abs_error", "Set_abs_error"); ("Set_EvolLowPassCutoff", "Set_EvolLowPassCutoff");
  ("Set_EvolLowPassScale", "Set_EvolLowPassScale"); ("GetNumE", "GetNumE"); ("GetNumCos", "GetNumCos");
  ("GetNumNeu", "GetNumNeu"); ("GetNumRho", "GetNumRho"); ("GetnuSQuIDS", "GetnuSQuIDS"); ("GetnuSQuIDS", "GetnuSQuIDS");
  ("Set_initial_state", "Set_initial_state"); ("Set_initial_state", "Set_initial_state"); ("GetStates", "GetStates");
  ("GetERange", "GetERange"); ("GetCosthRange", "GetCosthRange"); ("Set_IncludeOscillations", "Set_IncludeOscillations");
  ("Set_GlashowResonance", "Set_GlashowResonance"); ("Set_TauRegeneration", "Set_TauRegeneration");
  ("Set_AllowConstantDensityOscillationOnlyEvolution", "Set_AllowConstantDensityOscillationOnlyEvolution");
  ("Set_PositivyConstrain", "Set_PositivityConstrain"); ("Set_PositivyConstrainStep", "Set_PositivityConstrainStep");
  ("Get_EvalThreads", "Get_EvalThreads"); ("Set_EvalThreads", "Set_EvalThreads"); ("Set_EarthModel", "Set_EarthModel");
  ("SetNeutrinoCrossSections", "SetNeutrinoCrossSections"); ("GetNeutrinoCrossSections", "GetNeutrinoCrossSections")
].
(** nuSQUIDSpy.cpp, class NullCrossSections *)
Definition py_NullCrossSections : list (string * string) := [
  ("TotalCrossSection", "TotalCrossSection"); ("SingleDifferentialCrossSection", "SingleDifferentialCrossSection")
].
(** nuSQUIDSpy.cpp, class GlashowResonanceCrossSection *)
Definition py_GlashowResonanceCrossSection : list (string * string) := [
  ("TotalCrossSection", "TotalCrossSection"); ("SingleDifferentialCrossSection", "SingleDifferentialCrossSection");
  ("WDecayBranchingFraction", "WDecayBranchingFraction")
].
(** nuSQUIDSpy.cpp, class NeutrinoDISCrossSectionsFromTables *)
Definition py_NeutrinoDISCrossSectionsFromTables : list (string * string) := [
  ("TotalCrossSection", "TotalCrossSection"); ("SingleDifferentialCrossSection", "SingleDifferentialCrossSection");
  ("GetEmin", "GetEmin"); ("GetEmax", "GetEmax"); ("WriteHDF", "WriteHDF"); ("WriteText", "WriteText")
].
(** nuSQUIDSpy.cpp, class CrossSectionLibrary *)
Definition py_CrossSectionLibrary : list (string * string) := [
  ("crossSectionForTarget", "crossSectionForTarget"); ("hasTarget", "hasTarget"); ("addTarget", "addTarget")
].
(** nuSQUIDSpy.cpp, class TauDecaySpectra *)
Definition py_TauDecaySpectra : list (string * string) := [
  ("dNdEnu_All", "dNdEnu_All"); ("dNdEnu_Lep", "dNdEnu_Lep"); ("dNdEle_All", "dNdEle_All"); ("dNdEle_Lep", "dNdEle_Lep");
  ("GetTauToHadronBranchingRatio", "GetTauToHadronBranchingRatio");
  ("GetTauToLeptonBranchingRatio", "GetTauToLeptonBranchingRatio"); ("TauDecayToLepton", "TauDecayToLepton");
  ("TauDecayToHadron", "TauDecayToHadron"); ("TauDecayToAll", "TauDecayToAll"); ("TauDecayToPion", "TauDecayToPion");
  ("TauDecayToRho", "TauDecayToRho"); ("TauDecayToA1", "TauDecayToA1")
].
(** nuSQUIDSpy.cpp, class Body *)
Definition py_Body : list (string * string) := [
  ("density", "density"); ("ye", "ye")
].
(** nuSQUIDSpy.cpp, class Body::Track *)
Definition py_Body_Track : list (string * string) := [
  ("GetInitialX", "GetInitialX"); ("GetFinalX", "GetFinalX"); ("GetX", "GetX"); ("SetX", "SetX"); ("ReverseTrack", "ReverseTrack")
].
(** nuSQUIDSpy.cpp, class Vacuum *)
Definition py_Vacuum : list (string * string) := [
  ("density", "density"); ("ye", "ye")
].
(** nuSQUIDSpy.cpp, class Vacuum::Track *)
Definition py_Vacuum_Track : list (string * string) := [
  ("GetInitialX", "GetInitialX"); ("GetFinalX", "GetFinalX"); ("GetX", "GetX"); ("SetX", "SetX"); ("ReverseTrack", "ReverseTrack")
].
(** nuSQUIDSpy.cpp, class ConstantDensity *)
Definition py_ConstantDensity : list (string * string) := [
  ("density", "density"); ("ye", "ye")
].
(** nuSQUIDSpy.cpp, class ConstantDensity::Track *)
Definition py_ConstantDensity_Track : list (string * string) := [
  ("GetInitialX", "GetInitialX"); ("GetFinalX", "GetFinalX"); ("GetX", "GetX"); ("SetX", "SetX"); ("ReverseTrack", "ReverseTrack")
].
(** nuSQUIDSpy.cpp, class VariableDensity::Track *)
Definition py_VariableDensity_Track : list (string * string) := [
  ("GetInitialX", "GetInitialX"); ("GetFinalX", "GetFinalX"); ("GetX", "GetX"); ("SetX", "SetX"); ("ReverseTrack", "ReverseTrack")
].
(** nuSQUIDSpy.cpp, class Earth::Track *)
Definition py_Earth_Track : list (string * string) := [
  ("GetInitialX", "GetInitialX"); ("GetFinalX", "GetFinalX"); ("GetX", "GetX"); ("SetX", "SetX"); ("ReverseTrack", "ReverseTrack")
].
(** nuSQUIDSpy.cpp, class Sun::Track *)
Definition py_Sun_Track : list (string * string) := [
  ("GetInitialX", "GetInitialX"); ("GetFinalX", "GetFinalX"); ("GetX", "GetX"); ("SetX", "SetX"); ("ReverseTrack", "ReverseTrack")
].
(** nuSQUIDSpy.cpp, class SunASnu::Track *)
Definition py_SunASnu_Track : list (string * string) := [
  ("GetInitialX", "GetInitialX"); ("GetFinalX", "GetFinalX"); ("GetX", "GetX"); ("SetX", "SetX"); ("ReverseTrack", "ReverseTrack")
].
(** nuSQUIDSpy.cpp, class EarthAtm *)
Definition py_EarthAtm : list (string * string) := [
  ("GetRadius", "GetRadius"); ("GetAtmosphereHeight", "GetAtmosphereHeight"); ("SetAtmosphereHeight", "GetAtmosphereHeight");
  ("MakeTrack", "MakeTrack"); ("MakeTrackWithCosine", "MakeTrackWithCosine")
].
(** nuSQUIDSpy.cpp, class EarthAtm::Track *)
Definition py_EarthAtm_Track : list (string * string) := [
  ("GetInitialX", "GetInitialX"); ("GetFinalX", "GetFinalX"); ("GetX", "GetX"); ("SetX", "SetX"); ("ReverseTrack", "ReverseTrack")
].
Definition py_classes : list (string * list (string * string)) := [
  ("nuSQUIDS", py_nuSQUIDS); ("nuSQUIDSAtm", py_nuSQUIDSAtm); ("NullCrossSections", py_NullCrossSections); ("GlashowResonanceCrossSection", py_GlashowResonanceCrossSection); ("NeutrinoDISCrossSectionsFromTables", py_NeutrinoDISCrossSectionsFromTables); ("CrossSectionLibrary", py_CrossSectionLibrary); ("TauDecaySpectra", py_TauDecaySpectra); ("Body", py_Body); ("Body::Track", py_Body_Track); ("Vacuum", py_Vacuum); ("Vacuum::Track", py_Vacuum_Track); ("ConstantDensity", py_ConstantDensity); ("ConstantDensity::Track", py_ConstantDensity_Track); ("VariableDensity::Track", py_VariableDensity_Track); ("Earth::Track", py_Earth_Track); ("Sun::Track", py_Sun_Track); ("SunASnu::Track", py_SunASnu_Track); ("EarthAtm", py_EarthAtm); ("EarthAtm::Track", py_EarthAtm_Track)
].

(** ** Calls *)
Definition lookup_class (c : string) : option (list (string * string)) := option_map snd (find (fun p => String.eqb (fst p) c) py_classes).
Definition bound_to (c n : string) : option string :=
  match lookup_class c with None => None | Some l => option_map snd (find (fun p => String.eqb (fst p) n) l) end.

(** EarthAtm as Python sees it: the members bound in nuSQUIDSpy.cpp 440-447 that take numbers; body.h:745-753, body.cpp:900-903. A call whose
    arguments do not fit the member is refused with an exception (ArgumentError, [OtherExn]). The result is the number returned, if any,
    and the medium. *)
Record atm := Atm { a_radius : R; a_height : R }.
Definition atm_member (m : string) (args : list R) (o : atm) : outcome (option R * atm) :=
  if String.eqb m "GetRadius" then match args with [] => Ok (Some (a_radius o), o) | _ => Throw OtherExn end
  else if String.eqb m "GetAtmosphereHeight" then match args with [] => Ok (Some (a_height o), o) | _ => Throw OtherExn end
  else if String.eqb m "SetAtmosphereHeight" then match args with [h] => Ok (None, Atm (a_radius o) h) | _ => Throw OtherExn end
  else Throw OtherExn.
Definition atm_call (n : string) (args : list R) (o : atm) : outcome (option R * atm) :=
  match bound_to "EarthAtm" n with None => Throw OtherExn | Some m => atm_member m args o end.

(** ** Overloads: each is the test of its arguments and what it does; the last registered is tried first *)
Definition resolve {A B : Type} (l : list ((A -> bool) * (A -> B))) (a : A) : option B :=
  option_map (fun p => snd p a) (find (fun p => fst p a) (rev l)).
(** Set_initial_state with a numpy array: nuSQUIDSpy.h:289-291 (ranks 1, 2, 3) and 417-418 (ranks 3, 4). The result is the rank of the member. *)
Definition initial_state_overloads {raw} (dims : list nat) : list ((ndarray raw -> bool) * (ndarray raw -> nat)) :=
  map (fun d => (convertible d, fun _ => d)) dims.
Definition nus_initial {raw} : list ((ndarray raw -> bool) * (ndarray raw -> nat)) := initial_state_overloads [1; 2; 3].
Definition atm_initial {raw} : list ((ndarray raw -> bool) * (ndarray raw -> nat)) := initial_state_overloads [3; 4].

(** ** Steppers: nuSQUIDSpy.h:199-253. Values of the enumeration in order; any integer can be made an enumeration value in Python. *)
Inductive stepper := Rk2 | Rk4 | Rkf45 | Rkck | Rk8pd | Msadams.
Definition step_names : list (string * nat) :=
  [("GSL_STEP_RK2", 0); ("GSL_STEP_RK4", 1); ("GSL_STEP_RKF45", 2); ("GSL_STEP_RKCK", 3); ("GSL_STEP_RK8PD", 4); ("GSL_STEP_MSADAMS", 5)].
(** 208-230: the object's stepper after the call *)
Definition wrap_step (v : nat) (old : stepper) : stepper :=
  match v with 0 => Rk2 | 1 => Rk4 | 2 => Rkf45 | 3 => Rkck | 4 => Rk8pd | 5 => Msadams | _ => old end.
(** 232-254; every node is told the same (nuSQUIDSAtm::Set_GSL_step) *)
Definition wrap_step_atm (v : nat) (old : list stepper) : list stepper :=
  match v with
  | 0 => map (fun _ => Rk2) old | 1 => map (fun _ => Rk4) old | 2 => map (fun _ => Rkf45) old | 3 => map (fun _ => Rkck) old
  | 4 => map (fun _ => Rk8pd) old | 5 => map (fun _ => Msadams) old | _ => old
  end.

(** ** Sequences of truth values. An item is true, false, or has no truth value (PyObject_IsTrue gives -1, for example an array of several
    elements); an item that cannot be taken is a null pointer (None), which PyObject_IsTrue reads. *)
Inductive truth := TTrue | TFalse | TError.
Definition is_true (t : truth) : bool := match t with TFalse => false | _ => true end.
(** nuSQUIDSpy.cpp:37-55: [push_back(PyObject_IsTrue(item))]; no check of errors *)
Fixpoint to_bools (l : list (option truth)) : outcome (list bool) :=
  match l with
  | [] => Ok []
  | None :: _ => UB
  | Some t :: l' => obind (to_bools l') (fun r => Ok (is_true t :: r))
  end.
(** 57-66: the vector is taken by value; [eval] is nuSQUIDS::EvalFlavor, which returns the content and writes in the vector which
    oscillations were averaged. What Python gets, and the caller's list after the call. *)
Definition py_eval (eval : list bool -> R * list bool) (mask : list (option truth)) : outcome (R * list (option truth)) :=
  obind (to_bools mask) (fun v => Ok (fst (eval v), mask)).
