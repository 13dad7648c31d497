(** Properties C136-C139: what the method [discretize] of any process returns. *)
From Coq Require Import String Reals List Arith Lia Lra.
From Verif.Base Require Import Prelude Sums Arrays.
From Verif.Spec Require Import Product Law Markov Discretize.
From Verif.Model Require Import Discretization Distributions Processes Discretize.
From Verif.Proofs Require Import DiscretizeKinds DiscretizeLaws DiscretizeDims DiscretizeCounts DiscretizeMoments ProcessProofs.
Import ListNotations.
Open Scope R_scope.
Local Open Scope string_scope.

(** ** C136: the kind asked for *)

(** A call that returns gives an object of the kind asked for; the exception is an autoregressive process asked for something
    else than "mc" or "gdp", which returns None. *)
Theorem C136_kind_partial :
  forall herm chol_np chol_sp x s k o, discretize herm chol_np chol_sp x (ToStr s) k = Ok o ->
    kind_of o = Some s \/ (kind_of o = None /\ autoregressive x /\ s <> "mc" /\ s <> "gdp").
Proof. exact kind_asked. Qed.
Print Assumptions C136_kind_partial.

(** Without the exception the claim fails: asked for an i.i.d. law, autoregressive processes return None, whatever the options. *)
Theorem C136_none_refuted :
  forall herm chol_np chol_sp s, s <> "mc" -> s <> "gdp" ->
  forall x k, autoregressive x -> discretize herm chol_np chol_sp x (ToStr s) k = Ok ONone.
Proof. exact silent. Qed.
Print Assumptions C136_none_refuted.

(** Only Markov chains are put on a grid, and the grid is their points. *)
Theorem C136_grids :
  forall herm chol_np chol_sp x k o, discretize herm chol_np chol_sp x (ToStr "gdp") k = Ok o ->
    exists c, x = PChain c /\ o = OGdp (mc_to_gdp c).
Proof. exact grids_of_chains. Qed.
Print Assumptions C136_grids.

(** Unknown kinds are refused, but by autoregressive processes. *)
Theorem C136_unknown :
  forall herm chol_np chol_sp x s k o, discretize herm chol_np chol_sp x (ToStr s) k = Ok o ->
    s <> "iid" -> s <> "mc" -> s <> "gdp" -> o = ONone /\ autoregressive x.
Proof. exact unknown_kind. Qed.
Print Assumptions C136_unknown.

(** Products of laws never become Markov chains: even when all their factors do, AttributeError is raised. *)
Theorem C136_laws_chain_refuted :
  forall herm chol_np chol_sp l,
    (forall k o, discretize herm chol_np chol_sp (PLaws l) (ToStr "mc") k <> Ok o) /\
    (l <> [] -> (forall y, In y l -> exists c, discretize herm chol_np chol_sp y (ToStr "mc") no_kw = Ok (OChain c)) ->
     discretize herm chol_np chol_sp (PLaws l) (ToStr "mc") no_kw = Err ExcAttribute).
Proof.
  exact (fun herm a b l => conj (laws_no_chain herm a b l) (laws_attribute herm a b l no_kw eq_refl)).
Qed.
Print Assumptions C136_laws_chain_refuted.

(** Without [to]: laws give laws, chains and autoregressive processes give chains, and constants always raise. *)
Theorem C136_default :
  forall herm chol_np chol_sp x k,
    match x with
    | PConstant _ => exists e, discretize herm chol_np chol_sp x ToOmitted k = Err e
    | PChain _ | PAr1 _ _ _ | PVar1 _ =>
        discretize herm chol_np chol_sp x ToOmitted k = discretize herm chol_np chol_sp x (ToStr "mc") k
    | PProcs _ => True
    | _ => discretize herm chol_np chol_sp x ToOmitted k = discretize herm chol_np chol_sp x (ToStr "iid") k
    end.
Proof. exact defaults. Qed.
Print Assumptions C136_default.

(** Products of processes: a chain as soon as one factor is a chain or is autoregressive, a law when all factors are laws, and
    an exception otherwise. *)
Theorem C136_product_default :
  forall herm chol_np chol_sp l,
    ((exists y, In y l /\ (markov y \/ autoregressive y)) -> forall k,
       discretize herm chol_np chol_sp (PProcs l) ToOmitted k = discretize herm chol_np chol_sp (PProcs l) (ToStr "mc") k) /\
    ((forall y, In y l -> independent y) -> forall k,
       discretize herm chol_np chol_sp (PProcs l) ToOmitted k = discretize herm chol_np chol_sp (PProcs l) (ToStr "iid") k) /\
    ((forall y, In y l -> ~ markov y /\ ~ autoregressive y) -> ~ (forall y, In y l -> independent y) ->
       forall k, exists e, discretize herm chol_np chol_sp (PProcs l) ToOmitted k = Err e).
Proof. exact product_target. Qed.
Print Assumptions C136_product_default.

(** Keywords that no method has are refused, but by constants and (where nothing is returned) autoregressive processes. *)
Theorem C136_keywords :
  forall herm chol_np chol_sp x to N m mp o,
    (forall mu, x <> PConstant mu) -> ~ autoregressive x -> (forall b, x <> PBare b) ->
    discretize herm chol_np chol_sp x to (Kw N m mp o true) = Err ExcType.
Proof. exact unknown_keyword. Qed.
Print Assumptions C136_keywords.

(** ** C137: probabilities *)

(** Whatever the process, the kind and the options, what is returned is made of probabilities: of sum one for a law, by row for
    a chain, from each node for a grid. *)
Theorem C137_probability :
  forall herm chol_np chol_sp, weighted_rule herm ->
  forall x to k o, given_probabilities x -> positive_orders k ->
    discretize herm chol_np chol_sp x to k = Ok o -> probability o.
Proof. exact discretize_probability. Qed.
Print Assumptions C137_probability.

(** With order zero the Gauss-Hermite method returns a law without points. *)
Theorem C137_order_zero_refuted :
  forall chol_np chol_sp ppf sigma mu, exists d,
    discretize hermgauss chol_np chol_sp (PUni ppf (Some (sigma, mu))) (ToStr "iid")
      (Kw (Some (NInt 0)) (Some Mgh) None None false) = Ok (OIid d) /\
    iid_n d = 0%nat /\ ~ probability (OIid d).
Proof. exact empty_law. Qed.
Print Assumptions C137_order_zero_refuted.

(** The Markov chain of a law draws from the law again whatever the state: from its default discretisation. *)
Theorem C137_chain_of_law :
  forall herm chol_np chol_sp x k c, independent x -> (forall mu, x <> PConstant mu) ->
    discretize herm chol_np chol_sp x (ToStr "mc") k = Ok (OChain c) ->
    exists d, discretize herm chol_np chol_sp x (ToStr "iid") no_kw = Ok (OIid d) /\ fst c = iid_points d /\
      forall i j, mget (snd c) i j = iid_weight d j.
Proof. exact chain_of_default. Qed.
Print Assumptions C137_chain_of_law.

(** ** C138: dimensions *)

(** The points of the discretisation have as many coordinates as the process has variables. *)
Theorem C138_dimension :
  forall herm chol_np chol_sp, square_factors chol_np -> square_factors chol_sp ->
  forall x to k n o, construct x = Ok (Some n) -> discretize herm chol_np chol_sp x to k = Ok o -> coordinates n o.
Proof. exact discretize_dim. Qed.
Print Assumptions C138_dimension.

(** ** C139: numbers of points *)

Theorem C139_univariate :
  forall herm chol_np chol_sp ppf gh n m mp d, (1 <= n)%nat ->
    discretize herm chol_np chol_sp (PUni ppf gh) (ToStr "iid") (Kw (Some (NInt n)) m mp None false) = Ok (OIid d) -> iid_n d = n.
Proof. exact count_uni. Qed.
Print Assumptions C139_univariate.

(** N points by coordinate, or the product of the numbers given. *)
Theorem C139_normal :
  forall herm chol_np chol_sp nm orders d, positive_orders (Kw (Some orders) None None None false) ->
    discretize herm chol_np chol_sp (PNormal nm) (ToStr "iid") (Kw (Some orders) None None None false) = Ok (OIid d) ->
    iid_n d = match orders with NInt n => n ^ nrow (nm_Sigma nm) | NList l => prodn l end%nat.
Proof. exact count_normal. Qed.
Print Assumptions C139_normal.

Theorem C139_var1 :
  forall herm chol_np chol_sp p n c, square_factors chol_sp ->
    discretize herm chol_np chol_sp (PVar1 p) (ToStr "mc") (Kw (Some (NInt n)) None None None false) = Ok (OChain c) ->
    nrow (fst c) = (n ^ nrow (v_Sigma p))%nat.
Proof. exact count_var1. Qed.
Print Assumptions C139_var1.

Theorem C139_ar1 :
  forall herm chol_np chol_sp rho sigma mu n c,
    discretize herm chol_np chol_sp (PAr1 rho sigma mu) (ToStr "mc") (Kw (Some (NInt n)) None None None false) = Ok (OChain c) ->
    nrow (fst c) = n.
Proof. exact count_ar1. Qed.
Print Assumptions C139_ar1.

Theorem C139_constant :
  forall herm chol_np chol_sp mu n c,
    discretize herm chol_np chol_sp (PConstant mu) (ToStr "mc") (Kw (Some (NInt n)) None None None false) = Ok (OChain c) ->
    nrow (fst c) = n.
Proof. exact count_constant. Qed.
Print Assumptions C139_constant.

(** Refuted for laws turned into chains: the number of points and the method are accepted and not used. *)
Theorem C139_chains_refuted :
  forall herm chol_np chol_sp n m mp,
    (forall ppf gh, discretize herm chol_np chol_sp (PUni ppf gh) (ToStr "mc") (Kw (Some (NInt n)) m mp None false)
                  = discretize herm chol_np chol_sp (PUni ppf gh) (ToStr "mc") no_kw) /\
    (forall nm, discretize herm chol_np chol_sp (PNormal nm) (ToStr "mc") (Kw (Some (NInt n)) None None None false)
              = discretize herm chol_np chol_sp (PNormal nm) (ToStr "mc") no_kw).
Proof. exact chain_ignores. Qed.
Print Assumptions C139_chains_refuted.

(** ** C82, C84: moments of the chains of autoregressive processes, by the method *)

(** VAR1 with diagonal covariance: conditional means and covariances of the chain, N points per shock, 3 by default. *)
Theorem C82_method :
  forall herm chol_np chol_sp r Sigma mu to N c L,
    let n := match N with Some n => n | None => 3%nat end in
    let d := ncol Sigma in
    to = ToOmitted \/ to = ToStr "mc" -> (2 <= n)%nat -> nrow Sigma = d ->
    (forall i j, (i < d)%nat -> (j < d)%nat -> i <> j -> mget Sigma i j = 0) ->
    (forall i, (i < d)%nat -> 0 <= mget Sigma i i) -> (1 <= d)%nat ->
    chol_sp (patch_zero Sigma) = Ok L -> is_cholesky_upper d (patch_zero Sigma) L ->
    discretize herm chol_np chol_sp (PVar1 (make_var1 (RhoScalar r) Sigma (Some mu))) to (Kw (option_map NInt N) None None None false) = Ok (OChain c) ->
    stochastic (n ^ d) (snd c) /\
    forall k, (k < n ^ d)%nat ->
      (forall i, (i < d)%nat -> next_mean (n ^ d) (snd c) k (fun l => mget (fst c) l i) = vget mu i + r * (mget (fst c) k i - vget mu i)) /\
      (forall i j, (i < d)%nat -> (j < d)%nat ->
         let m i := vget mu i + r * (mget (fst c) k i - vget mu i) in
         next_mean (n ^ d) (snd c) k (fun l => (mget (fst c) l i - m i) * (mget (fst c) l j - m j)) = mget Sigma i j).
Proof. exact var1_method_moments. Qed.
Print Assumptions C82_method.

(** AR1(rho, sigma, mu): sigma is the conditional variance. *)
Theorem C84_method :
  forall herm chol_np chol_sp r sigma mu to N c L,
    let n := match N with Some n => n | None => 3%nat end in
    to = ToOmitted \/ to = ToStr "mc" -> (2 <= n)%nat -> 0 < sigma ->
    chol_sp (patch_zero (Mat 1 1 (fun _ _ => sigma))) = Ok L -> is_cholesky_upper 1 (patch_zero (Mat 1 1 (fun _ _ => sigma))) L ->
    discretize herm chol_np chol_sp (PAr1 r sigma mu) to (Kw (option_map NInt N) None None None false) = Ok (OChain c) ->
    forall k, (k < n)%nat ->
      next_mean n (snd c) k (fun l => mget (fst c) l 0%nat) = mu + r * (mget (fst c) k 0%nat - mu) /\
      next_mean n (snd c) k (fun l => (mget (fst c) l 0%nat - (mu + r * (mget (fst c) k 0%nat - mu))) ^ 2) = sigma.
Proof. exact ar1_method_moments. Qed.
Print Assumptions C84_method.

(** ** Cases that meet the hypotheses *)

(** A rule with equal weights, and the factors of matrices of size one. *)
Definition rule0 (n : nat) : res ((nat -> R) * (nat -> R)) := Ok ((fun _ => 0), (fun _ => sqrt PI / INR n)).
Definition factor0 (A : mat) : res mat :=
  match nrow A, ncol A with 1%nat, 1%nat => Ok (Mat 1 1 (fun _ _ => sqrt (mget A 0%nat 0%nat))) | _, _ => Err ExcLinAlg end.

Example C137_rule : weighted_rule rule0.
Proof.
  intros n x w Hn H. injection H as <- <-. assert (0 < INR n) by (apply lt_0_INR; lia). split.
  - rewrite rsum_const. field. lra.
  - intros i _. apply Rmult_le_pos; [apply sqrt_pos|]. left. apply Rinv_0_lt_compat. assumption.
Qed.

Example C138_factors : square_factors factor0.
Proof.
  intros [[|[|r]] [|[|c]] f] L H; unfold factor0 in H; cbn [nrow ncol] in H; try discriminate. injection H as <-. repeat split.
Qed.

(** A two-state chain, and a mixture of a constant and of a uniform law, drawn by a Bernouilli law. *)
Definition chain0 : chain := (Mat 2 1 (fun i _ => INR i), Mat 2 2 (fun _ _ => 1 / 2)).
Definition mixture0 : proc :=
  PMixture (PBernouilli (1 / 2))
    [("0", PConstant (Vec 1 (fun _ => 3))); ("1", PUni (uniform_ppf 0 1) None)].
Definition process0 : proc := PProcs [PChain chain0; mixture0].

Example C137_process : given_probabilities process0 /\ positive_orders no_kw /\
  exists o, discretize rule0 factor0 factor0 process0 ToOmitted no_kw = Ok (OChain o) /\ nrow (fst o) = 12%nat.
Proof.
  split.
  - cbn [process0 mixture0 given_probabilities everyp snd]. split; [|split; [split; [lra|tauto]|exact I]].
    split; [reflexivity|]. split; [reflexivity|]. split; [reflexivity|]. cbn [chain0 snd mget nrow]. split; [intros; lra|].
    intros i _. unfold rsum. simpl. lra.
  - split; [split; exact I|]. eexists. split; reflexivity.
Qed.

Example C138_process : construct process0 = Ok (Some 2%nat) /\
  exists o, discretize rule0 factor0 factor0 process0 ToOmitted no_kw = Ok (OChain o) /\ ncol (fst o) = 2%nat.
Proof. split; [reflexivity|]. eexists. split; reflexivity. Qed.

Example C136_returns : exists o, discretize rule0 factor0 factor0 mixture0 (ToStr "mc") no_kw = Ok o /\ kind_of o = Some "mc".
Proof. eexists. split; reflexivity. Qed.

Example C136_grid : exists o, discretize rule0 factor0 factor0 (PChain chain0) (ToStr "gdp") no_kw = Ok o.
Proof. eexists. reflexivity. Qed.

Example C136_unknown_case : discretize rule0 factor0 factor0 (PAr1 (1 / 2) 1 0) (ToStr "chain") no_kw = Ok ONone.
Proof. reflexivity. Qed.

Example C136_laws_case : forall y, In y [PLaw (Equi (Mat 2 1 (fun i _ => INR i))); PBernouilli (1 / 3)] ->
  exists c, discretize rule0 factor0 factor0 y (ToStr "mc") no_kw = Ok (OChain c).
Proof. intros y [<-|[<-|[]]]; eexists; reflexivity. Qed.

Example C136_mixed_product :
  (exists y, In y [PChain chain0; mixture0] /\ (markov y \/ autoregressive y)) /\
  (forall y, In y [mixture0; PBernouilli (1 / 2)] -> independent y) /\
  (forall y, In y [PProcs []; mixture0] -> ~ markov y /\ ~ autoregressive y) /\
  ~ (forall y, In y [PProcs []; mixture0] -> independent y).
Proof.
  split; [exists (PChain chain0); split; [left; reflexivity|left; exact I]|].
  split; [intros y [<-|[<-|[]]]; exact I|].
  split; [intros y [<-|[<-|[]]]; split; intros []|].
  intros H. exact (H _ (or_introl eq_refl)).
Qed.

Example C136_keyword_case : (forall mu, mixture0 <> PConstant mu) /\ ~ autoregressive mixture0 /\ (forall b, mixture0 <> PBare b).
Proof. split; [discriminate|]. split; [intros []|discriminate]. Qed.

Example C137_chain_case : independent mixture0 /\ (forall mu, mixture0 <> PConstant mu) /\
  exists c, discretize rule0 factor0 factor0 mixture0 (ToStr "mc") no_kw = Ok (OChain c).
Proof. split; [exact I|]. split; [discriminate|]. eexists. reflexivity. Qed.

Example C139_univariate_case : exists d,
  discretize rule0 factor0 factor0 (PUni (uniform_ppf 0 1) None) (ToStr "iid") (Kw (Some (NInt 7)) None (Some MPmedian) None false) = Ok (OIid d).
Proof. eexists. reflexivity. Qed.

Example C139_normal_case :
  positive_orders (Kw (Some (NList [4%nat])) None None None false) /\ exists d,
  discretize rule0 factor0 factor0 (PNormal {| nm_Sigma := Mat 1 1 (fun _ _ => 1); nm_Mu := Vec 1 (fun _ => 0) |}) (ToStr "iid")
    (Kw (Some (NList [4%nat])) None None None false) = Ok (OIid d).
Proof.
  split; [split; [repeat constructor|exact I]|].
  cbn. unfold normal_discretize, gauss_hermite_nodes. cbn. destruct (Rlt_dec 1 0); [lra|]. cbn. eexists. reflexivity.
Qed.

Example C139_ar1_case : exists c,
  discretize rule0 factor0 factor0 (PAr1 (1 / 2) 1 0) (ToStr "mc") (Kw (Some (NInt 3)) None None None false) = Ok (OChain c).
Proof.
  cbn [discretize given]. unfold ar1_discretize, var1_discretize, var1_discretize_mc, multidimensional_discretization, rouwenhorst.
  cbn. destruct (Req_EM_T (1 - 1 / 2 * (1 / 2 * 1)) 0); [lra|]. destruct (Rlt_dec (1 - 1 / 2 * (1 / 2 * 1)) 0); [lra|].
  destruct (Rle_dec (Rabs (1 / 2 - 1 / 2)) 1) as [_|A]; [cbn; eexists; reflexivity|].
  exfalso. apply A. replace (1 / 2 - 1 / 2) with 0 by lra. rewrite Rabs_R0. lra.
Qed.

(** C84_method, with the default number of points and sigma = 1. *)
Example C84_method_case : exists c L,
  factor0 (patch_zero (Mat 1 1 (fun _ _ => 1))) = Ok L /\ is_cholesky_upper 1 (patch_zero (Mat 1 1 (fun _ _ => 1))) L /\
  discretize rule0 factor0 factor0 (PAr1 (1 / 2) 1 0) ToOmitted (Kw (option_map NInt None) None None None false) = Ok (OChain c).
Proof.
  eexists. eexists. split; [reflexivity|]. split.
  - assert (Z : mget (patch_zero (Mat 1 1 (fun _ _ => 1))) 0%nat 0%nat = 1).
    { unfold patch_zero, zero_column. cbn [mget nrow rsum Nat.eqb andb]. destruct (Req_EM_T _ _); lra. }
    unfold is_cholesky_upper. cbn [nrow ncol mget]. repeat split.
    + intros; lia.
    + intros i Hi. rewrite Z, sqrt_1. lra.
    + intros i j Hi Hj. replace i with 0%nat by lia. replace j with 0%nat by lia. cbn [rsum]. rewrite Z, sqrt_1. lra.
  - cbn [discretize given]. unfold ar1_discretize, var1_discretize, var1_discretize_mc, multidimensional_discretization, rouwenhorst.
    cbn. destruct (Req_EM_T (1 - 1 / 2 * (1 / 2 * 1)) 0); [lra|]. destruct (Rlt_dec (1 - 1 / 2 * (1 / 2 * 1)) 0); [lra|].
    destruct (Rle_dec (Rabs (1 / 2 - 1 / 2)) 1) as [_|A]; [cbn; reflexivity|].
    exfalso. apply A. replace (1 / 2 - 1 / 2) with 0 by lra. rewrite Rabs_R0. lra.
Qed.
