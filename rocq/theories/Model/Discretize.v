(** The method [discretize] of every process: dolo/numeric/processes.py and dolo/numeric/distribution.py.

    The objects of one process are distinct: a Normal law discretised twice has had its covariance matrix changed by the
    first call (see [normal_discretize]).  Arguments are given by name. *)
From Coq Require Import String Reals List Arith Bool DecimalString.
From Verif.Base Require Import Prelude Sums Arrays Dict.
From Verif.Model Require Import Discretization Grids Distributions Processes GdpDiscretization.
Import ListNotations.
Open Scope R_scope.

(* ------------------------------------------------------------------ *)
(** ** Processes and calls *)

(** Constant (114-136; Aggregate 139-143), Equiprobable and Finite laws (distribution.py:142-250), Bernouilli (275-302),
    laws of one variable (325-396: the quantile function, and the parameters of a UNormal, the only one with
    Gauss-Hermite points), Normal (561-622), products (627-651) and mixtures (710-768) of laws, Markov chains
    (processes.py:234-288), AR1 (371-392), VAR1 (494-530), products of processes (295-350), and classes without a method
    [discretize]: Conditional (630-638), and Binomial, the only one to be an IIDProcess (distribution.py:305-312). *)
Inductive proc : Type :=
| PConstant (mu : vec)
| PLaw (d : iid)
| PBernouilli (pi : R)
| PUni (ppf : R -> R) (gh : option (R * R))
| PNormal (n : normal)
| PLaws (l : list proc)
| PMixture (index : proc) (dists : list (string * proc))
| PChain (c : chain)
| PAr1 (rho sigma mu : R)
| PVar1 (p : var1)
| PProcs (l : list proc)
| PBare (is_iid : bool).

(** The argument [to]: not given, None, or a string. *)
Inductive toarg : Type := ToOmitted | ToNone | ToStr (s : string).

(** The argument N is an int or a list. *)
Inductive narg : Type := NInt (n : nat) | NList (l : list nat).

(** The other keyword arguments of a call; [other] is any keyword that is not N, method, mass_point or options. *)
Inductive kwargs : Type :=
| Kw (N : option narg) (m : option method) (mp : option mass_point) (opts : option kwoptions) (other : bool)
with kwoptions : Type := KDict (k : kwargs) | KList (l : list kwargs).
Definition no_kw : kwargs := Kw None None None None false.

(** What a call returns. *)
Inductive out : Type := OIid (d : iid) | OChain (c : chain) | OGdp (g : gdp) | ONone.

(** The value of [to] when its default is [d]. *)
Definition given (d to : toarg) : toarg := match to with ToOmitted => d | t => t end.
(** to == s *)
Definition to_is (to : toarg) (s : string) : bool := match to with ToStr s' => String.eqb s' s | _ => false end.

Definition is_some {A} (o : option A) : bool := match o with Some _ => true | None => false end.
(** No keyword but [to] (172, 232, 283, 643, 727; processes.py:246). *)
Definition only_to (k : kwargs) : bool :=
  match k with Kw N m mp o other => negb (is_some N || is_some m || is_some mp || is_some o || other) end.
(** No keyword but [to] and N (596; processes.py:394, 414, 526, 551). *)
Definition only_N (k : kwargs) : bool :=
  match k with Kw _ m mp o other => negb (is_some m || is_some mp || is_some o || other) end.
(** No keyword but [to], N, method and mass_point (343). *)
Definition only_uni (k : kwargs) : bool :=
  match k with Kw _ _ _ o other => negb (is_some o || other) end.
(** No keyword but [to] and options (processes.py:304). *)
Definition only_options (k : kwargs) : bool :=
  match k with Kw N m mp _ other => negb (is_some N || is_some m || is_some mp || other) end.

Definition kw_N (k : kwargs) : option narg := match k with Kw N _ _ _ _ => N end.
Definition kw_method (k : kwargs) : method := match k with Kw _ (Some m) _ _ _ => m | _ => Mep end.
Definition kw_mass_point (k : kwargs) : mass_point := match k with Kw _ _ (Some mp) _ _ => mp | _ => MPmedian end.
Definition kw_options (k : kwargs) : kwoptions := match k with Kw _ _ _ (Some o) _ => o | _ => KDict no_kw end.

(** str(i) *)
Definition str (i : nat) : string := NilZero.string_of_uint (Nat.to_uint i).

(* ------------------------------------------------------------------ *)
(** ** Attributes and constructors *)

(** Results of a list of calls, made in order. *)
Fixpoint all_ok {A} (l : list (res A)) : res (list A) :=
  match l with [] => Ok [] | r :: l' => bind r (fun a => bind (all_ok l') (fun as_ => Ok (a :: as_))) end.

(** The same with an argument for each call. *)
Definition map2_ok {A B C} (f : A -> B -> res C) : list A -> list B -> res (list C) :=
  fix go l ks := match l, ks with
                 | y :: l', k :: ks' => bind (f y k) (fun c => bind (go l' ks') (fun cs => Ok (c :: cs)))
                 | _, _ => Ok []
                 end.

(** Reading the attribute [d]. *)
Definition read_d (o : option nat) : res nat := match o with Some d => Ok d | None => Err ExcAttribute end.
Definition sum_list (l : list nat) : nat := fold_right Nat.add 0%nat l.

(** The attribute [d] of the object (None when it has no such attribute), or what its constructor raises: products sum the
    attributes (processes.py:302-304, distribution.py:637-641), mixtures need them equal (715-725). *)
Fixpoint construct (x : proc) : res (option nat) :=
  match x with
  | PConstant mu => Ok (Some (vlen mu))                                       (* processes.py:119-125 *)
  | PLaw d => Ok (Some (iid_d d))
  | PBernouilli _ => Ok None
  | PUni _ _ => Ok (Some 1%nat)                                               (* distribution.py:328 *)
  | PNormal n => Ok (Some (nrow (nm_Sigma n)))                                (* 576 *)
  | PLaws l | PProcs l =>
      bind (all_ok (map construct l)) (fun os => bind (all_ok (map read_d os)) (fun ds => Ok (Some (sum_list ds))))
  | PMixture index dists =>
      bind (construct index) (fun _ =>
      bind (all_ok (map (fun kv => construct (snd kv)) dists)) (fun os =>
      bind (all_ok (map read_d os)) (fun ds =>
      match ds with
      | [] => Err ExcAssert
      | d :: ds' => if forallb (Nat.eqb d) ds' then Ok (Some d) else Err ExcAssert
      end)))
  | PChain c => Ok (Some (ncol (fst c)))                                      (* processes.py:244 *)
  | PAr1 _ _ _ => Ok (Some 1%nat)                                             (* 382 *)
  | PVar1 p => Ok (Some (nrow (v_Sigma p)))                                   (* 507, 520 *)
  | PBare _ => Ok None
  end.

(** isinstance(x, MarkovChain) or isinstance(x, ContinuousProcess), and isinstance(x, IIDProcess) (312-320). *)
Definition markov_or_continuous (x : proc) : bool := match x with PChain _ | PAr1 _ _ _ | PVar1 _ => true | _ => false end.
Definition iid_process_class (x : proc) : bool :=
  match x with PChain _ | PAr1 _ _ _ | PVar1 _ | PProcs _ => false | PBare b => b | _ => true end.

(* ------------------------------------------------------------------ *)
(** ** discretize *)

(** f.weights and f.points of each element (657-666), m.values and m.transitions of each element (processes.py:360). *)
Definition as_law (o : out) : res iid := match o with OIid d => Ok d | _ => Err ExcAttribute end.
Definition as_chain (o : out) : res chain := match o with OChain c => Ok c | _ => Err ExcAttribute end.

Definition out_of (d : disc) : out := match d with DIid d => OIid d | DChain c => OChain c end.

Section Discretize.
  (** hermgauss or any one-dimensional rule; the Cholesky factors of numpy (lower) and scipy (upper). *)
  Variable herm : nat -> res ((nat -> R) * (nat -> R)).
  Variable chol_np chol_sp : mat -> res mat.

  (** processes.py:119-136; N = kwargs.get("N", 1), and a list is refused by repeat or by eye. *)
  Definition constant_discretize (mu : vec) (to : toarg) (k : kwargs) : res out :=
    if to_is to "iid" then bind (constant_iid mu) (fun d => Ok (OIid d))
    else if to_is to "mc" then
      match kw_N k with
      | None => Ok (OChain (constant_mc mu 1))
      | Some (NInt n) => Ok (OChain (constant_mc mu n))
      | Some (NList l) => Err (if Nat.eqb (length l) 1 then ExcType else ExcValue)
      end
    else Err (ExcGeneric "Not implemented").

  (** distribution.py:172-178, 232-249. *)
  Definition law_discretize (d : iid) (to : toarg) : res out :=
    if to_is to "iid" then Ok (OIid d)
    else if to_is to "mc" then bind (iid_to_mc d) (fun c => Ok (OChain c))
    else Err (ExcGeneric "Not implemented.").

  (** 343-396: without [__discretize_gh__] the attribute is missing; a list N cannot divide a number. *)
  Definition uni_discretize (ppf : R -> R) (gh : option (R * R)) (to : toarg) (k : kwargs) : res out :=
    let rule orders := match gh with
                       | None => Err ExcAttribute
                       | Some (sigma, mu) => unormal_gh_orders herm chol_np sigma mu orders
                       end in
    let target := if to_is to "iid" then ToIid else if to_is to "mc" then ToMc else ToGdp in
    match kw_N k with
    | Some (NList l) =>
        if to_is to "iid" then
          match kw_method k with
          | Mgh => bind (rule l) (fun d => Ok (OIid d))
          | Mep => match kw_mass_point k with MPother => Err (ExcGeneric "Not implemented") | _ => Err ExcType end
          | Mother => Err (ExcGeneric "Unknown discretization method.")
          end
        else bind (univariate_discretize ppf (fun n => rule [n]) target 5 (kw_method k) (kw_mass_point k)) (fun d => Ok (out_of d))
    | N => let n := match N with Some (NInt n) => n | _ => 5%nat end in
           bind (univariate_discretize ppf (fun n => rule [n]) target n (kw_method k) (kw_mass_point k)) (fun d => Ok (out_of d))
    end.

  (** 596-616. *)
  Definition normal_discretize_to (self : normal) (to : toarg) (k : kwargs) : res out :=
    let orders := match kw_N k with
                  | None => repeat 5%nat (nrow (nm_Sigma self))
                  | Some (NInt n) => repeat n (nrow (nm_Sigma self))
                  | Some (NList l) => l
                  end in
    if to_is to "iid" then bind (normal_discretize herm chol_np self orders) (fun dn => Ok (OIid (fst dn)))
    else if to_is to "mc" then bind (normal_discretize_mc herm chol_np self) (fun cn => Ok (OChain (fst cn)))
    else Err (ExcGeneric "Not implemented.").

  (** processes.py:246-258. *)
  Definition chain_discretize (c : chain) (to : toarg) : res out :=
    if to_is to "gdp" then Ok (OGdp (mc_to_gdp c))
    else if to_is to "mc" then Ok (OChain c)
    else Err (ExcGeneric "Not implemented.").

  (** 526-591: int(N) refuses a list, after the factorisation; on a grid N is read after the call that raises.  With another
      value of [to] nothing is returned. *)
  Definition var1_discretize (p : var1) (to : toarg) (k : kwargs) : res out :=
    if to_is to "mc" then
      if negb (only_N k) then Err ExcType else
      match kw_N k with
      | Some (NList _) => if scalar_check (v_rho p) then bind (chol_sp (patch_zero (v_Sigma p))) (fun _ => Err ExcType)
                          else Err ExcName
      | N => let n := match N with Some (NInt n) => n | _ => 3%nat end in
             bind (var1_discretize_mc chol_sp p n) (fun c => Ok (OChain c))
      end
    else if to_is to "gdp" then
      if negb (only_N k) then Err ExcType else
      bind (var1_discretize_gdp herm chol_np p 3) (fun g => Ok (OGdp g))
    else Ok ONone.

  (** 385-454: as a VAR1 of dimension 1 whose covariance is sigma, but on a grid rho is a float. *)
  Definition ar1_discretize (rho sigma mu : R) (to : toarg) (k : kwargs) : res out :=
    if to_is to "gdp" then
      if negb (only_N k) then Err ExcType else
      bind (ar1_discretize_gdp herm chol_np rho sigma mu 3) (fun g => Ok (OGdp g))
    else var1_discretize {| v_rho := Mat 1 1 (fun _ _ => rho); v_Sigma := Mat 1 1 (fun _ _ => sigma);
                            v_mu := Vec 1 (fun _ => mu) |} to k.

  (** distribution.py:729-749 with the discretised index [o] and the results [ds] of discretising each law (only those read
      are computed).  Only laws are returned with to="iid", besides None, which has no n_inodes. *)
  Definition mixture_of (o : out) (ds : list (string * res out)) : res iid :=
    bind (as_law o) (fun index =>
    mixture_iid index (fun i => match dget ds (str i) with None => Err ExcKey | Some r => bind r as_law end)).

  (** processes.py:306-310: the keyword arguments of each factor. *)
  Definition kwargs_list (k : kwargs) (n : nat) : res (list kwargs) :=
    match kw_options k with
    | KDict k' => Ok (repeat k' n)
    | KList l => if Nat.eqb (length l) n then Ok l else Err ExcAssert
    end.

  (** 312-323. *)
  Definition chosen (l : list proc) (to : toarg) : toarg :=
    match to with
    | ToStr s => ToStr s
    | _ => if existsb markov_or_continuous l then ToStr "mc"
           else if forallb iid_process_class l then ToStr "iid" else ToStr "gdp"
    end.

  (** 325-338: any other string leaves [fun] unbound, which is found out after the factors have been discretised. *)
  Definition combine_all (to : toarg) (os : list out) : res out :=
    if to_is to "iid" then bind (all_ok (map as_law os)) (fun ds => bind (product_iid ds) (fun d => Ok (OIid d)))
    else if to_is to "mc" then bind (all_ok (map as_chain os)) (fun cs => bind (tensor_markov cs) (fun c => Ok (OChain c)))
    else if to_is to "gdp" then Err (ExcGeneric "Not implemented")
    else Err ExcName.

  Fixpoint discretize (x : proc) (to : toarg) (k : kwargs) : res out :=
    match x with
    | PConstant mu => constant_discretize mu to k
    | PLaw d => if only_to k then law_discretize d (given (ToStr "iid") to) else Err ExcType
    | PBernouilli pi =>                                                       (* distribution.py:283-295 *)
        if only_to k then bind (bernouilli_iid pi) (fun d => law_discretize d (given (ToStr "iid") to)) else Err ExcType
    | PUni ppf gh => if only_uni k then uni_discretize ppf gh (given (ToStr "iid") to) k else Err ExcType
    | PNormal n => if only_N k then normal_discretize_to n (given (ToStr "iid") to) k else Err ExcType
    | PLaws l =>                                                              (* 643-647 *)
        if only_to k then
          bind (all_ok (map (fun y => discretize y (given (ToStr "iid") to) no_kw) l)) (fun os =>
          bind (all_ok (map as_law os)) (fun ds => bind (product_iid ds) (fun d => Ok (OIid d))))
        else Err ExcType
    | PMixture index dists =>                                                 (* 727-757 *)
        if only_to k then
          let t := given (ToStr "iid") to in
          let law := bind (discretize index (ToStr "iid") no_kw) (fun o =>
                     mixture_of o (map (fun kv => (fst kv, discretize (snd kv) (ToStr "iid") no_kw)) dists)) in
          if to_is t "iid" then bind law (fun d => Ok (OIid d))
          else if to_is t "mc" then bind law (fun d => law_discretize d (ToStr "mc"))
          else Err (ExcGeneric "Not implemented.")
        else Err ExcType
    | PChain c => if only_to k then chain_discretize c (given (ToStr "mc") to) else Err ExcType
    | PAr1 rho sigma mu => ar1_discretize rho sigma mu (given (ToStr "mc") to) k
    | PVar1 p => var1_discretize p (given (ToStr "mc") to) k
    | PProcs l =>                                                             (* processes.py:304-338 *)
        if only_options k then
          bind (kwargs_list k (length l)) (fun ks =>
          let t := chosen l to in
          bind (map2_ok (fun y k' => discretize y t k') l ks) (combine_all t))
        else Err ExcType
    | PBare _ => Err ExcAttribute
    end.
End Discretize.
