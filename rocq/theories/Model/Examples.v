(** The model files shipped in /repo/examples/models, as dolo reads them: symbols, equations,
    definitions and calibration lines, as syntax trees (dolang's grammar is outside of the model).
    Each tree is the text of the file with the dates [t], [t+1], [t-1] written 0, 1, -1; undated
    names stand for parameters, or variables at date t. Bounds equal to inf or -inf, names of the
    models, sections 'exogenous' and 'options' are left out. *)
From Coq Require Import String Reals List ZArith.
From Verif Require Import Base.Prelude Base.Dict Model.CompilerMisc Model.Factories Model.ModelObject.
Import ListNotations.
Open Scope string_scope.
Open Scope list_scope.

(** ** Numbers: a real, or nan *)
Definition num : Type := option R.

(** Operators of the formulas (dolang prints them as Python, numpy computes). Powers of negative
    numbers, and other operations without a finite value, are errors: a simplification. *)
Definition real_op1 (f : string) (a : R) : res R :=
  if f =? "exp" then Ok (exp a)
  else if f =? "log" then (if Rlt_dec 0 a then Ok (ln a) else Err ExcValue)
  else if f =? "-" then Ok (- a)%R
  else Err ExcName.
Definition real_power (a b : R) : res R :=
  if Rlt_dec 0 a then Ok (Rpower a b)
  else if Req_EM_T a 0 then (if Rlt_dec 0 b then Ok 0%R else Err ExcZeroDiv)
  else Err ExcValue.
Definition real_op2 (f : string) (a b : R) : res R :=
  if f =? "+" then Ok (a + b)%R
  else if f =? "-" then Ok (a - b)%R
  else if f =? "*" then Ok (a * b)%R
  else if f =? "/" then (if Req_EM_T b 0 then Err ExcZeroDiv else Ok (a / b)%R)
  else if f =? "^" then real_power a b
  else Err ExcName.
Definition num_op1 (f : string) (a : num) : res num :=
  match a with
  | Some x => bind (real_op1 f x) (fun y => Ok (Some y))
  | None => Ok None
  end.
Definition num_op2 (f : string) (a b : num) : res num :=
  match a, b with
  | Some x, Some y => bind (real_op2 f x y) (fun z => Ok (Some z))
  | _, _ => Ok None
  end.

(** ** Notations for formulas *)
Declare Scope formula_scope.
Delimit Scope formula_scope with formula.
Bind Scope formula_scope with expr.
Definition formula : Type := expr num.
Definition par (s : string) : formula := ESym (SPar s).
Definition var (s : string) (t : Z) : formula := ESym (SVar s t).
Definition lit (r : R) : formula := ENum (Some r).
Notation "a + b" := (EApp2 "+" a b) : formula_scope.
Notation "a - b" := (EApp2 "-" a b) : formula_scope.
Notation "a * b" := (EApp2 "*" a b) : formula_scope.
Notation "a / b" := (EApp2 "/" a b) : formula_scope.
Notation "a ^ b" := (EApp2 "^" a b) : formula_scope.
Notation "- a" := (EApp1 "-" a) : formula_scope.
Definition expo (a : formula) : formula := EApp1 "exp" a.
Definition logarithm (a : formula) : formula := EApp1 "log" a.
Local Open Scope formula_scope.

(** Dates of the files: x[t], x[t+1], x[t-1]. *)
Local Notation "x '[t]'" := (var x 0) (at level 1) : formula_scope.
Local Notation "x '[t+1]'" := (var x 1) (at level 1) : formula_scope.
Local Notation "x '[t-1]'" := (var x (-1)) (at level 1) : formula_scope.

Definition nan_formula : formula := ENum None.

(** A file: symbols, equations, definitions, calibration. *)
Record file : Type := File {
  file_source : @source num;
  file_lines : dict formula }.

(** ** The RBC models *)

(** rbc.yaml:10-14; rbc_iid.yaml:13-17, rbc_ar1.yaml:13-17, rbc_mc.yaml:13-17 *)
Definition rbc_definitions : dict formula := [
  ("y", expo "z"[t] * "k"[t] ^ par "alpha" * "n"[t] ^ (lit 1 - par "alpha"));
  ("c", "y"[t] - "i"[t]);
  ("rk", par "alpha" * "y"[t] / "k"[t]);
  ("w", (lit 1 - par "alpha") * "y"[t] / "n"[t])].

(** rbc.yaml:18-20; rbc_iid.yaml:21-23, rbc_ar1.yaml:21-23, rbc_mc.yaml:21-23 *)
Definition rbc_arbitrage : list (equation num) := [
  Lone (par "chi" * "n"[t] ^ par "eta" * "c"[t] ^ par "sigma" - "w"[t]);
  Lone (lit 1 - par "beta" * ("c"[t] / "c"[t+1]) ^ par "sigma" * (lit 1 - par "delta" + "rk"[t+1]))].

(** rbc.yaml:24; rbc_iid.yaml:28, rbc_ar1.yaml:27, rbc_mc.yaml:26 *)
Definition rbc_capital : equation num :=
  Equal "k"[t] ((lit 1 - par "delta") * "k"[t-1] + "i"[t-1]).

(** rbc_iid.yaml:30-41, rbc_ar1.yaml:29-41, rbc_mc.yaml:28-40 *)
Definition rbc_value_equations : dict (list (equation num)) := [
  ("value", [Equal "V"[t] ("c"[t] ^ (lit 1 - par "sigma") / (lit 1 - par "sigma")
      - par "chi" * "n"[t] ^ (lit 1 + par "eta") / (lit 1 + par "eta") + par "beta" * "V"[t+1])]);
  ("felicity", [Equal "u"[t] ("c"[t] ^ (lit 1 - par "sigma") / (lit 1 - par "sigma")
      - par "chi" * "n"[t] ^ (lit 1 + par "eta") / (lit 1 + par "eta"))]);
  ("expectation", [Equal "m"[t] (par "beta" / "c"[t+1] ^ par "sigma"
      * (lit 1 - par "delta" + "rk"[t+1]))]);
  ("direct_response", [
    Equal "n"[t] (((lit 1 - par "alpha") * expo "z"[t] * "k"[t] ^ par "alpha" * "m"[t] / par "chi")
                  ^ (lit 1 / (par "eta" + par "alpha")));
    Equal "i"[t] (expo "z"[t] * "k"[t] ^ par "alpha" * "n"[t] ^ (lit 1 - par "alpha")
                  - "m"[t] ^ (- lit 1 / par "sigma"))])].

Definition rbc_parameters : list string :=
  ["beta"; "sigma"; "eta"; "chi"; "delta"; "alpha"; "rho"; "zbar"; "sig_z"].
Definition rbc_auxiliaries : list string := ["y"; "c"; "rk"; "w"].

(** Calibration lines common to the four files: rbc.yaml:28-51, rbc_iid.yaml:45-70,
    rbc_ar1.yaml:45-72, rbc_mc.yaml:43-70. *)
Definition rbc_lines : dict formula := [
  ("beta", lit (99/100)); ("phi", lit 1); ("delta", lit (25/1000)); ("alpha", lit (33/100));
  ("rho", lit (8/10)); ("sigma", lit 5); ("eta", lit 1); ("sig_z", lit (16/1000)); ("zbar", lit 0);
  ("chi", par "w" / par "c" ^ par "sigma" / par "n" ^ par "eta");
  ("c_i", lit (15/10)); ("c_y", lit (5/10)); ("e_z", lit 0);
  ("n", lit (33/100)); ("z", par "zbar");
  ("rk", lit 1 / par "beta" - lit 1 + par "delta");
  ("w", (lit 1 - par "alpha") * expo (par "z") * (par "k" / par "n") ^ par "alpha");
  ("k", par "n" / (par "rk" / par "alpha") ^ (lit 1 / (lit 1 - par "alpha")));
  ("y", expo (par "z") * par "k" ^ par "alpha" * par "n" ^ (lit 1 - par "alpha"));
  ("i", par "delta" * par "k"); ("c", par "y" - par "i");
  ("V", logarithm (par "c") / (lit 1 - par "beta"));
  ("u", par "c" ^ (lit 1 - par "sigma") / (lit 1 - par "sigma")
        - par "chi" * par "n" ^ (lit 1 + par "eta") / (lit 1 + par "eta"))].

(** rbc_iid.yaml:71 (and rbc.yaml:52) *)
Definition m_line : string * formula :=
  ("m", par "beta" / par "c" ^ par "sigma" * (lit 1 - par "delta" + par "rk")).

(** rbc_ar1.yaml:59-60, rbc_mc.yaml:57-58 *)
Definition m_zero_lines : dict formula := [
  ("m", lit 0);
  ("V0", (par "c" ^ (lit 1 - par "sigma") / (lit 1 - par "sigma")
          - par "chi" * par "n" ^ (lit 1 + par "eta") / (lit 1 + par "eta")) / (lit 1 - par "beta"))].

(** rbc.yaml:23; the undated name of the shock is the shock at date t *)
Definition rbc_file : file := File
  (Source [("exogenous", ["e_z"]); ("states", ["z"; "k"]); ("controls", ["n"; "i"]);
           ("parameters", rbc_parameters); ("auxiliaries", rbc_auxiliaries)]
     [("arbitrage", rbc_arbitrage);
      ("transition", [Equal "z"[t] (par "rho" * "z"[t-1] + par "e_z"); rbc_capital])]
     rbc_definitions)
  (rbc_lines ++ [m_line; ("kss", lit 10)]).

(** rbc_iid.yaml *)
Definition rbc_iid_file : file := File
  (Source [("exogenous", ["e_z"]); ("states", ["z"; "k"]); ("controls", ["n"; "i"]);
           ("expectations", ["m"]); ("values", ["V"]); ("parameters", rbc_parameters);
           ("rewards", ["u"]); ("auxiliaries", rbc_auxiliaries)]
     ([("arbitrage", rbc_arbitrage);
       ("transition", [Equal "z"[t] (par "rho" * "z"[t-1] + "e_z"[t]); rbc_capital])]
      ++ rbc_value_equations)
     rbc_definitions)
  (rbc_lines ++ [m_line]).

(** rbc_ar1.yaml *)
Definition rbc_ar1_file : file := File
  (Source [("exogenous", ["z"]); ("states", ["k"]); ("controls", ["n"; "i"]);
           ("expectations", ["m"]); ("values", ["V"]); ("parameters", rbc_parameters);
           ("rewards", ["u"]); ("auxiliaries", rbc_auxiliaries)]
     ([("arbitrage", rbc_arbitrage); ("transition", [rbc_capital])] ++ rbc_value_equations)
     rbc_definitions)
  (rbc_lines ++ m_zero_lines).

(** rbc_mc.yaml; the bounds are those of lines 22-23 *)
Definition rbc_mc_file : file := File
  (Source [("exogenous", ["z"; "p"]); ("states", ["k"]); ("controls", ["n"; "i"]);
           ("expectations", ["m"]); ("values", ["V"]); ("parameters", rbc_parameters);
           ("rewards", ["u"]); ("auxiliaries", rbc_auxiliaries)]
     ([("arbitrage", rbc_arbitrage);
       ("arbitrage_lb", [Lone (lit (1/100)); Lone (lit 0)]);
       ("arbitrage_ub", [Lone (lit 1); Lone (lit 1)]);
       ("transition", [rbc_capital])] ++ rbc_value_equations)
     rbc_definitions)
  (rbc_lines ++ m_zero_lines).

(** ** rmt3_ch11.yaml *)
Definition fiscal_file : file := File
  (Source [("states", ["k"; "tau_c"; "tau_k"]); ("controls", ["c"]);
           ("exogenous", ["g"; "exog_tau_c"; "exog_tau_k"]);
           ("parameters", ["beta"; "gamma"; "delta"; "alpha"; "A"]); ("auxiliaries", ["eta"; "w"])]
     [("arbitrage", [Lone (par "beta" * ("c"[t+1] / "c"[t]) ^ (- par "gamma")
                           * (lit 1 + "tau_c"[t]) / (lit 1 + "tau_c"[t+1])
                           * ((lit 1 - "tau_k"[t+1]) * ("eta"[t+1] - par "delta") + lit 1) - lit 1)]);
      ("transition", [
         Equal "k"[t] (par "A" * "k"[t-1] ^ par "alpha" + (lit 1 - par "delta") * "k"[t-1]
                       - "c"[t-1] - "g"[t]);
         Equal "tau_c"[t] "exog_tau_c"[t]; Equal "tau_k"[t] "exog_tau_k"[t]])]
     [("eta", par "alpha" * par "A" * "k"[t] ^ (par "alpha" - lit 1));
      ("w", par "A" * "k"[t] ^ par "alpha" - "k"[t] * "eta"[t])])
  [("beta", lit (95/100)); ("gamma", lit 2); ("delta", lit (2/10)); ("alpha", lit (33/100));
   ("A", lit 1); ("exog_tau_c", lit 0); ("exog_tau_k", lit 0);
   ("tau_c", par "exog_tau_c"); ("tau_k", par "exog_tau_k"); ("g", lit (2/10));
   ("k", ((lit 1 / par "beta" - lit 1 + par "delta") / par "alpha") ^ (lit 1 / (par "alpha" - lit 1)));
   ("c", par "k" ^ par "alpha" - par "delta" * par "k" - par "g")].

(** ** consumption_savings_iid.yaml *)
Definition savings_file : file := File
  (Source [("exogenous", ["y"]); ("states", ["w"]); ("expectations", ["mr"]); ("poststates", ["a"]);
           ("controls", ["c"]); ("parameters", ["β"; "γ"; "σ"; "ρ"; "r"; "cbar"])]
     [("transition", [Equal "w"[t] (expo "y"[t] + ("w"[t-1] - "c"[t-1]) * par "r")]);
      ("arbitrage", [Lone (par "β" * ("c"[t+1] / "c"[t]) ^ (- par "γ") * par "r" - lit 1)]);
      ("arbitrage_lb", [Lone (lit 0)]);
      ("arbitrage_ub", [Lone "w"[t]]);
      ("half_transition", [Equal "w"[t] (expo "y"[t] + "a"[t-1] * par "r")]);
      ("reverse_state", [Equal "w"[t] ("a"[t] + "c"[t])]);
      ("expectation", [Equal "mr"[t] (par "β" * ("c"[t+1] / par "cbar") ^ (- par "γ") * par "r")]);
      ("direct_response_egm", [Equal "c"[t] (par "cbar" * "mr"[t] ^ (- lit 1 / par "γ"))])]
     [])
  [("β", lit (96/100)); ("γ", lit 4); ("σ", lit (1/10)); ("ρ", lit 0); ("r", lit (102/100));
   ("cbar", par "c"); ("w", lit 1); ("ξ", lit 0); ("c", lit (9/10) * par "w")].

(** ** Sections 'domain': rbc.yaml:58-60, rbc_iid.yaml:76-78, rbc_ar1.yaml:81-82, rbc_mc.yaml:77-78 *)
Definition productivity_bounds : bound formula num * bound formula num :=
  let w := (lit 1 - par "rho" ^ lit 2) ^ lit (5/10) in
  (BExpr (- lit 2 * par "sig_z" / w), BExpr (lit 2 * par "sig_z" / w)).
Definition around (name : string) (low high : R) : bound formula num * bound formula num :=
  (BExpr (par name * lit low), BExpr (par name * lit high)).
Definition rbc_domain : section formula num :=
  [("z", productivity_bounds); ("k", around "kss" (5/10) (15/10))].
Definition rbc_iid_domain : section formula num :=
  [("z", productivity_bounds); ("k", around "k" (5/10) (15/10))].
Definition rbc_ar1_domain : section formula num := [("k", around "k" (5/10) (15/10))].
Definition rbc_mc_domain : section formula num := [("k", around "k" (2/10) 2)].

(** ** What dolo computes from a file *)
Section Computed.
(** dolang's triangular solver, and its order for the definitions (external) *)
Variable solve : dict formula -> res (dict num).
Variable reorder : list (sym * formula) -> res (list (sym * formula)).
(** whether the value of an equation is visible, under the name of its target, to the equations
    below (dolang's compiler) *)
Variable keep : bool.

(** model.py:563-577 and 281-341: the calibration of a model read from the file, after
    [set_calibration] with keywords [kwargs]. The definitions are keyed by names without date (322). *)
Definition undate (e : formula) : formula :=
  (fix go (e : formula) : formula :=
     match e with
     | ENum c => ENum c
     | ESym (SPar s) => ESym (SPar s)
     | ESym (SVar s _) => ESym (SPar s)
     | EApp1 f a => EApp1 f (go a)
     | EApp2 f a b => EApp2 f (go a) (go b)
     end) e.
Definition calibrate (f : file) (kwargs : dict formula) : res (dict num) :=
  ModelObject.get_calibration (lit 0) nan_formula solve
    (Loosy (src_symbols (file_source f)) equivalent_symbols)
    (dupdate (file_lines f) kwargs)
    (map (fun d => (fst d, undate (snd d))) (src_definitions (file_source f))).

(** model.functions[eq_type](...): factories.py 51-144, and the call. *)
Definition model_function (f : file) (eq_type : string) (args : list (list num)) : res (list num) :=
  bind (get_factory reorder (file_source f) eq_type 0) (fun ff => call num_op1 num_op2 keep ff args).

(** misc.py:5-18: the vector of a group (names without value are nan). *)
Definition calibrated (f : file) (sol : dict num) (group : string) : res (list num) :=
  bind (lookup (src_symbols (file_source f)) group) (fun l => Ok (group_vector None sol l)).

(** model.domain: model.py:347-386 and 586-589 (no grid in the options: the files give none there) *)
Definition model_domain (f : file) (sec : section formula num) (sol : dict num)
  : res (option (dict (num * num))) :=
  bind (lookup (src_symbols (file_source f)) "states") (fun states =>
  snd (get_domain (fun sol e => eval_formula num_op1 num_op2 sol e) true states (None, None) (Ok sol)
         (Some sec))).

(** Differences of vectors of a same length. *)
Definition minus_vec (a b : list num) : list num :=
  map (fun p => match p with (Some x, Some y) => Some (x - y)%R | _ => None end) (combine a b).

(** model.py:796-800 and steady_state.py:8-25 [residuals], without [calib] *)
Definition model_residuals (f : file) (sol : dict num) : res (dict (list num)) :=
  bind (calibrated f sol "exogenous") (fun m =>
  bind (calibrated f sol "states") (fun s =>
  bind (calibrated f sol "controls") (fun x =>
  bind (calibrated f sol "parameters") (fun p =>
  bind (model_function f "transition" [m; s; x; m; p]) (fun g =>
  bind (model_function f "arbitrage" [m; s; x; m; s; x; p]) (fun a =>
  Ok [("transition", minus_vec g s); ("arbitrage", a)])))))).
End Computed.
