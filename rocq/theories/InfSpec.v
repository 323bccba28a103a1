(** Vocabulary for the properties of the support code. *)
From Coq Require Import Bool Ascii String.
From Verif Require Import Base InfModel.
Open Scope string_scope.

(** smallest verbosity at which a call is meant to print *)
Definition level (c : call) : Z :=
  match c with CLog => 1 | CError => 1 | CWarn => 2 | CNote => 3 | CInfo => 4 | CDebug => 5
  | CDebug1 => 6 | CDebug2 => 7 | CDebug3 => 8 | CDebug4 => 9 end%Z.
Definition plain (c : call) : bool :=
  match c with CLog | CWarn | CInfo | CNote | CDebug => true | _ => false end.

(** decreasing severity *)
Definition severity (s : string) : Z :=
  if s =? "CRITICAL" then 5 else if s =? "ERROR" then 4 else if s =? "WARNING" then 3
  else if s =? "INFO" then 2 else if s =? "DEBUG" then 1 else 0.
Definition method_names : list string := ["CRITICAL"; "ERROR"; "WARNING"; "INFO"; "DEBUG"; "DEBUGALL"].
Definition verbosities : list string := "QUIET" :: method_names.

(** the documented names of set_backend (its docstring): what must be
    installed, the class and the float type they select *)
Inductive need := NNone | NTorch | NCuda | NTA.
Definition installed (e : env) (n : need) : bool :=
  match n with NNone => true | NTorch => torch_ok e | NCuda => torch_ok e && cuda_ok e | NTA => ta_ok e end.
Definition documented : list (string * need * cls * string) :=
  [("numpy", NNone, NumpyB, "float64"); ("numpy.float16", NNone, NumpyB, "float16");
   ("numpy.float32", NNone, NumpyB, "float32"); ("numpy.float64", NNone, NumpyB, "float64");
   ("numpy.float128", NNone, NumpyB, "float128");
   ("torch", NTorch, TorchB, "float64"); ("torch.float16", NTorch, TorchB, "float16");
   ("torch.float32", NTorch, TorchB, "float32"); ("torch.float64", NTorch, TorchB, "float64");
   ("torch.cuda", NCuda, TorchCudaB, "float64"); ("torch.cuda.float16", NCuda, TorchCudaB, "float16");
   ("torch.cuda.float32", NCuda, TorchCudaB, "float32"); ("torch.cuda.float64", NCuda, TorchCudaB, "float64")].
Definition documented_ta : list string := ["TiledArray"; "TiledArray.sparse"; "TiledArray.cuda"; "TiledArray.cuda.sparse"].
(** the installed modules have the documented float types *)
Definition has_floats (e : env) : Prop :=
  Forall (fun t => np_has e t = true) ["float16"; "float32"; "float64"; "float128"] /\
  Forall (fun t => torch_has e t = true) ["float16"; "float32"; "float64"].
