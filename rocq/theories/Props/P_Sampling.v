(** Properties C126-C128: draws from distributions, simulation of i.i.d. and product processes.

    [uniforms N r] are N numbers in [0, 1) drawn from the generator in state r, with its next state; [integers n N r]
    are N integers below n; [normals m S N r] are N normal vectors of mean m and covariance S; [pyrand] is the
    generator read by compiled code. *)
From Coq Require Import String Reals List Arith Lia Lra.
From Verif.Base Require Import Prelude Sums Arrays Nda.
From Verif.Spec Require Import Law Markov Sampling.
From Verif.Model Require Import Discretization Grids Distributions Processes Sampling.
From Verif.Proofs Require Import ProcessProofs SamplingProofs.
Import ListNotations.
Open Scope R_scope.
Open Scope list_scope.

(** C126.  draw(N) is an N x d array: one draw by row. *)
Theorem C126_shape_partial :
  forall rng uniforms integers normals x N, drawable x -> (N <> 1%nat \/ ~ has_normal x) -> forall r : rng,
    exists a r', draw rng uniforms integers normals x N r = (Ok a, r') /\ shape a = [N; dist_d x].
Proof. exact draw_shape. Qed.
Print Assumptions C126_shape_partial.

(** A product of a three-point law on the plane, a normal law and a uniform law. *)
Example C126_shape_example :
  let x := DProduct [DFinite (Mat 3 2 (fun i j => INR (i + j))) (Vec 3 (fun _ => 1 / 3)); DUNormal 1 0; DUniform 2 5] in
  drawable x /\ ~ has_normal x /\ dist_d x = 4%nat.
Proof.
  cbn. repeat split; try discriminate; try tauto.
  - intros. lra.
  - unfold rsum; simpl. lra.
  - intros pi [H|[H|[H|H]]]; [discriminate H|discriminate H|discriminate H|exact H].
Qed.

(** A single draw of a multivariate normal is a column (or a number) and not a row. *)
Theorem C126_single_normal_refuted :
  forall rng uniforms integers normals Sigma mu (r : rng),
    ((2 <= nrow Sigma)%nat -> exists a, fst (draw rng uniforms integers normals (DNormal Sigma mu) 1 r) = Ok a /\
                                        shape a = [nrow Sigma; 1%nat]) /\
    (nrow Sigma = 1%nat -> exists a, fst (draw rng uniforms integers normals (DNormal Sigma mu) 1 r) = Ok a /\ shape a = []).
Proof. exact draw_single_normal. Qed.
Print Assumptions C126_single_normal_refuted.

(** ... so that a single draw of a product with such a law raises. *)
Theorem C126_single_product_refuted :
  forall rng uniforms integers normals Sigma mu sigma m (r : rng), (1 <= nrow Sigma)%nat ->
    fst (draw rng uniforms integers normals (DProduct [DNormal Sigma mu; DUNormal sigma m]) 1 r) = Err ExcValue.
Proof. exact draw_single_product. Qed.
Print Assumptions C126_single_product_refuted.

(** Each row drawn from a finite law is one of its points: the point i when the number drawn falls in an interval of
    length the weight of i. *)
Theorem C126_finite :
  forall rng uniforms integers normals p w N (r : rng), vlen w = nrow p -> is_law (nrow p) (vget w) ->
    (forall k, 0 <= fst (uniforms N r) k < 1) ->
    exists a, draw rng uniforms integers normals (DFinite p w) N r = (Ok a, snd (uniforms N r)) /\ shape a = [N; ncol p] /\
      forall k, (k < N)%nat -> exists i, (i < nrow p)%nat /\
        (forall j, at_ a [k; j] = mget p i j) /\
        rsum i (vget w) <= fst (uniforms N r) k < rsum i (vget w) + vget w i.
Proof. exact draw_finite. Qed.
Print Assumptions C126_finite.

Example C126_finite_example :
  exists a, fst (draw nat toy_uniforms toy_integers toy_normals
                   (DFinite (Mat 2 1 (fun i _ => INR i)) (Vec 2 (fun i => if Nat.eqb i 0 then 1 / 3 else 2 / 3))) 3 0%nat) = Ok a.
Proof.
  destruct (C126_finite nat toy_uniforms toy_integers toy_normals
              (Mat 2 1 (fun i _ => INR i)) (Vec 2 (fun i => if Nat.eqb i 0 then 1 / 3 else 2 / 3)) 3 0%nat) as (a & E & _).
  - reflexivity.
  - split; [|unfold rsum; simpl; lra]. intros i _. simpl. destruct (Nat.eqb i 0); lra.
  - apply toy_uniforms_unit.
  - exists a. rewrite E. reflexivity.
Qed.

(** Weights which are not as many as the points, which are negative, or whose sum is not close to one are refused, before
    any number is drawn; no others are. *)
Theorem C126_finite_refused :
  forall rng uniforms integers normals p w N (r : rng),
    draw rng uniforms integers normals (DFinite p w) N r = (Err ExcValue, r) <->
    (vlen w <> nrow p \/ (exists i, (i < nrow p)%nat /\ vget w i < 0) \/ / 2 ^ 26 < Rabs (rsum (nrow p) (vget w) - 1)).
Proof. exact draw_finite_refused. Qed.
Print Assumptions C126_finite_refused.

(** Each row drawn from an equiprobable law is the point whose index was drawn. *)
Theorem C126_equiprobable :
  forall rng uniforms integers normals p N (r : rng), (1 <= nrow p)%nat ->
    exists a, draw rng uniforms integers normals (DEqui p) N r = (Ok a, snd (integers (nrow p) N r)) /\ shape a = [N; ncol p] /\
      forall k j, at_ a [k; j] = mget p (fst (integers (nrow p) N r) k) j.
Proof. exact draw_equi. Qed.
Print Assumptions C126_equiprobable.

(** Draws of a uniform law stay in [a, b] and are below c for a part (c - a)/(b - a) of the numbers of the generator. *)
Theorem C126_uniform :
  forall rng uniforms integers normals a b N (r : rng),
    a <= b -> (forall k, 0 <= fst (uniforms N r) k < 1) ->
    exists y, draw rng uniforms integers normals (DUniform a b) N r = (Ok y, snd (uniforms N r)) /\ shape y = [N; 1%nat] /\
      forall k, (k < N)%nat ->
        at_ y [k; 0%nat] = a + (b - a) * fst (uniforms N r) k /\ a <= at_ y [k; 0%nat] <= b /\
        (a < b -> at_ y [k; 0%nat] < b) /\
        forall c, a <= c <= b -> a < b -> (at_ y [k; 0%nat] < c <-> fst (uniforms N r) k < (c - a) / (b - a)).
Proof. exact draw_uniform. Qed.
Print Assumptions C126_uniform.

Example C126_uniform_example :
  exists y, fst (draw nat toy_uniforms toy_integers toy_normals (DUniform 2 5) 4 0%nat) = Ok y /\ at_ y [0%nat; 0%nat] = 7 / 2.
Proof.
  destruct (C126_uniform nat toy_uniforms toy_integers toy_normals 2 5 4 0%nat) as (y & E & _ & H).
  - lra.
  - apply toy_uniforms_unit.
  - exists y. rewrite E. split; [reflexivity|]. destruct (H 0%nat) as [-> _]; [lia|]. unfold toy_uniforms. simpl. lra.
Qed.

(** Several draws of a multivariate normal are the vectors of the generator, one by row; those of a normal of standard
    deviation sigma are the ones of the multivariate normal of variance sigma^2. *)
Theorem C126_normal_partial :
  forall rng uniforms integers normals Sigma m N (r : rng), (1 <= nrow Sigma)%nat -> N <> 1%nat ->
    exists a, draw rng uniforms integers normals (DNormal Sigma m) N r = (Ok a, snd (normals m Sigma N r)) /\
      shape a = [N; nrow Sigma] /\
      forall k j, (k < N)%nat -> (j < nrow Sigma)%nat -> at_ a [k; j] = fst (normals m Sigma N r) k j.
Proof. exact draw_normal. Qed.
Print Assumptions C126_normal_partial.

Theorem C126_unormal_partial :
  forall rng uniforms integers normals sigma mu N (r : rng), N <> 1%nat ->
    exists a b r',
      draw rng uniforms integers normals (DUNormal sigma mu) N r = (Ok a, r') /\
      draw rng uniforms integers normals (DNormal (Mat 1 1 (fun _ _ => sigma ^ 2)) (Vec 1 (fun _ => mu))) N r = (Ok b, r') /\
      shape a = [N; 1%nat] /\ shape b = [N; 1%nat] /\
      forall k, (k < N)%nat -> at_ a [k; 0%nat] = at_ b [k; 0%nat].
Proof. exact draw_unormal_normal. Qed.
Print Assumptions C126_unormal_partial.

(** A draw of a product puts side by side draws of its factors, made one after the other. *)
Theorem C126_product :
  forall rng uniforms integers normals l N (r : rng) a r',
    draw rng uniforms integers normals (DProduct l) N r = (Ok a, r') ->
    exists bs, each_in_turn (fun y => draw rng uniforms integers normals y N) l r bs r' /\ List.length bs = List.length l /\
      forall i k j, (i < List.length l)%nat ->
        let w := map (fun b => nth 1 (shape b) 0%nat) bs in
        (j < nth i w 0)%nat -> at_ a [k; offset w i + j]%nat = at_ (nth i bs (Nda [] (fun _ => 0))) [k; j].
Proof. exact draw_product. Qed.
Print Assumptions C126_product.

Example C126_product_example :
  exists a r', draw nat toy_uniforms toy_integers toy_normals (DProduct [DUniform 0 1; DUNormal 1 0]) 2 0%nat = (Ok a, r') /\
               shape a = [2; 2]%nat.
Proof. apply C126_shape_partial; [split; [discriminate|split; [cbn; tauto|intros pi [H|[H|H]]; [discriminate H|discriminate H|exact H]]]|left; discriminate]. Qed.

(** C127.  The simulation of an i.i.d. process for T dates and N paths draws T*N rows; path n at date t is row t*N+n. *)
Theorem C127_layout :
  forall rng uniforms integers normals pyrand x names N T m0 st (r : rng),
    drawable x -> (T * N <> 1 \/ ~ has_normal x)%nat -> (1 <= T)%nat -> (1 <= N)%nat ->
    List.length names = dist_d x ->
    exists a r' s, draw rng uniforms integers normals x (T * N) r = (Ok a, r') /\ shape a = [T * N; dist_d x]%nat /\
      simulate rng uniforms integers normals pyrand (PIid x names) N T m0 st r = (Ok s, r') /\
      pa_T s = T /\ pa_N s = N /\ pa_d s = dist_d x /\
      forall t n j, (t < T)%nat -> (n < N)%nat -> (j < dist_d x)%nat -> pa_at s t n j = at_ a [t * N + n; j]%nat.
Proof. exact iid_simulate_spec. Qed.
Print Assumptions C127_layout.

Example C127_layout_example :
  exists a r' s,
    draw nat toy_uniforms toy_integers toy_normals (DUniform 0 1) 6 0%nat = (Ok a, r') /\
    simulate nat toy_uniforms toy_integers toy_normals toy_uniforms (PIid (DUniform 0 1) ["e"%string]) 2 3 None true 0%nat = (Ok s, r') /\
    pa_at s 2 1 0 = at_ a [5; 0]%nat.
Proof.
  destruct (C127_layout nat toy_uniforms toy_integers toy_normals toy_uniforms (DUniform 0 1) ["e"%string] 2 3 None true 0%nat)
    as (a & r' & s & E & _ & Es & _ & _ & _ & H).
  - exact I.
  - left. discriminate.
  - lia.
  - lia.
  - reflexivity.
  - exists a, r', s. split; [exact E|]. split; [exact Es|]. apply (H 2 1 0)%nat; cbn; lia.
Qed.

(** For a multivariate normal this includes one path of one date. *)
Theorem C127_normal :
  forall rng uniforms integers normals pyrand Sigma m names N T m0 st (r : rng),
    (1 <= nrow Sigma)%nat -> (1 <= T)%nat -> (1 <= N)%nat -> List.length names = nrow Sigma ->
    exists s, simulate rng uniforms integers normals pyrand (PIid (DNormal Sigma m) names) N T m0 st r
              = (Ok s, snd (normals m Sigma (T * N)%nat r)) /\
      pa_T s = T /\ pa_N s = N /\ pa_d s = nrow Sigma /\
      forall t n j, (t < T)%nat -> (n < N)%nat -> (j < nrow Sigma)%nat ->
        pa_at s t n j = fst (normals m Sigma (T * N)%nat r) (t * N + n)%nat j.
Proof. exact normal_simulate_spec. Qed.
Print Assumptions C127_normal.

(** No path or no date, or names that are not as many as the components: ValueError. *)
Theorem C127_refused :
  (forall rng uniforms integers normals pyrand x names N T m0 st (r : rng), (T * N = 0)%nat -> drawable x ->
     simulate rng uniforms integers normals pyrand (PIid x names) N T m0 st r
     = (Err ExcValue, snd (draw rng uniforms integers normals x 0 r))) /\
  (forall rng uniforms integers normals pyrand x names N T m0 st (r : rng),
     drawable x -> (T * N <> 1 \/ ~ has_normal x)%nat -> (1 <= T)%nat -> (1 <= N)%nat ->
     List.length names <> dist_d x ->
     fst (simulate rng uniforms integers normals pyrand (PIid x names) N T m0 st r) = Err ExcValue).
Proof. exact (conj iid_empty iid_names). Qed.
Print Assumptions C127_refused.

(** The starting point and the absence of shocks are ignored: *)
Theorem C127_flags :
  forall rng uniforms integers normals pyrand x names N T m0 m0' st st' (r : rng),
    simulate rng uniforms integers normals pyrand (PIid x names) N T m0 st r
    = simulate rng uniforms integers normals pyrand (PIid x names) N T m0' st' r.
Proof. exact iid_flags_ignored. Qed.
Print Assumptions C127_flags.

(** ... a simulation without shocks is not constant. *)
Theorem C127_deterministic_refuted :
  exists x names s r', drawable x /\
    simulate nat toy_uniforms toy_integers toy_normals toy_uniforms (PIid x names) 1 2 None false 0%nat = (Ok s, r') /\
    pa_at s 0 0 0 <> pa_at s 1 0 0.
Proof. exact iid_not_deterministic. Qed.
Print Assumptions C127_deterministic_refuted.

(** C128.  A product is simulated when each of its factors is, one after the other (Bernouilli laws are refused: they have
    no attribute d), ... *)
Theorem C128_succeeds :
  forall rng uniforms integers normals pyrand l N T st (r r' : rng),
    (exists s, simulate rng uniforms integers normals pyrand (PProduct l) N T None st r = (Ok s, r')) <->
    l <> [] /\ (forall pi names, ~ In (PIid (DBernouilli pi) names) l) /\
    exists bs, each_in_turn (fun y => simulate rng uniforms integers normals pyrand y N T None st) l r bs r'.
Proof. exact product_simulate_iff. Qed.
Print Assumptions C128_succeeds.

(** ... and its simulation puts the ones of the factors side by side. *)
Theorem C128_blocks :
  forall rng uniforms integers normals pyrand l N T st (r : rng) s r',
    simulate rng uniforms integers normals pyrand (PProduct l) N T None st r = (Ok s, r') ->
    pa_T s = T /\ pa_N s = N /\
    exists bs, each_in_turn (fun y => simulate rng uniforms integers normals pyrand y N T None st) l r bs r' /\
      List.length bs = List.length l /\
      pa_d s = fold_right Nat.add 0%nat (map pa_d bs) /\
      forall i, (i < List.length l)%nat -> let b := nth i bs (Panel 0 0 0 (fun _ _ _ => 0)) in
        forall t n j, (j < pa_d b)%nat -> pa_at s t n (offset (map pa_d bs) i + j) = pa_at b t n j.
Proof. exact product_simulate_blocks. Qed.
Print Assumptions C128_blocks.

(** The simulation of an i.i.d. process and of a chain of two states. *)
Example C128_blocks_example :
  exists s r', simulate nat toy_uniforms toy_integers toy_normals toy_uniforms
    (PProduct [PIid (DUNormal 1 0) ["e"%string]; PChain (Mat 2 1 (fun i _ => INR i), Mat 2 2 (fun _ _ => 1 / 2))]) 2 3 None true 0%nat
    = (Ok s, r').
Proof.
  destruct (C127_layout nat toy_uniforms toy_integers toy_normals toy_uniforms (DUNormal 1 0) ["e"%string] 2 3 None true 0%nat)
    as (a & r1 & s1 & _ & _ & E1 & _); [exact I|left; discriminate|lia|lia|reflexivity|].
  destruct (chain_panel_nodes nat toy_uniforms toy_integers toy_normals toy_uniforms
              (Mat 2 1 (fun i _ => INR i), Mat 2 2 (fun _ _ => 1 / 2)) 2 2 3 true r1) as (s2 & r2 & E2 & _);
    [reflexivity| |lia|lia|exact toy_uniforms_unit|].
  { repeat split; intros; unfold is_law; cbn; repeat split; intros; unfold rsum; simpl; lra. }
  destruct (proj2 (C128_succeeds nat toy_uniforms toy_integers toy_normals toy_uniforms
              [PIid (DUNormal 1 0) ["e"%string]; PChain (Mat 2 1 (fun i _ => INR i), Mat 2 2 (fun _ _ => 1 / 2))] 2 3 true 0%nat r2))
    as (s & E).
  { split; [discriminate|]. split; [intros pi names [H|[H|[]]]; discriminate|]. exists [s1; s2]. econstructor; [exact E1|]. econstructor; [exact E2|]. constructor. }
  exists s, r2. exact E.
Qed.

(** A chain starts at its first node, moves between its nodes, and stays there without shocks. *)
Theorem C128_chain :
  forall rng uniforms integers normals pyrand c k N T st (r : rng),
    nrow (fst c) = k -> stochastic k (snd c) -> (1 <= T)%nat -> (1 <= k)%nat ->
    (forall n r m, 0 <= fst (pyrand n r) m < 1) ->
    exists s r', simulate rng uniforms integers normals pyrand (PChain c) N T None st r = (Ok s, r') /\ pa_d s = ncol (fst c) /\
      forall n, (n < N)%nat ->
        (forall j, (j < pa_d s)%nat -> pa_at s 0 n j = mget (fst c) 0 j) /\
        forall t, (t < T)%nat -> exists i, (i < k)%nat /\ (st = false -> i = 0%nat) /\
          forall j, (j < pa_d s)%nat -> pa_at s t n j = mget (fst c) i j.
Proof. exact chain_panel_nodes. Qed.
Print Assumptions C128_chain.

(** Each path of a VAR1 follows its law of motion, with its own shocks (and starts at m0 + mu, or at mu). *)
Theorem C128_var1 :
  forall rng uniforms integers normals pyrand p m0 N T (r : rng), (1 <= T)%nat ->
    match m0 with Some m => List.length m = nrow (v_Sigma p) | None => True end ->
    let z := normals (Vec (nrow (v_Sigma p)) (fun _ => 0)) (v_Sigma p) (N * T)%nat r in
    exists s, simulate rng uniforms integers normals pyrand (PVar1 p) N T m0 true r = (Ok s, snd z) /\
      pa_d s = nrow (v_Sigma p) /\
      forall n, (n < N)%nat ->
        (forall j, pa_at s 0 n j = match m0 with Some m => nth j m 0 | None => 0 end + vget (v_mu p) j) /\
        (forall t j, (S t < T)%nat ->
           pa_at s (S t) n j - vget (v_mu p) j
           = rsum (nrow (v_Sigma p)) (fun l => mget (v_rho p) j l * (pa_at s t n l - vget (v_mu p) l)) + fst z (S t * N + n)%nat j).
Proof. exact var1_panel_spec. Qed.
Print Assumptions C128_var1.

(** Refusals: a starting point; a factor that cannot be simulated. *)
Theorem C128_start_refused :
  forall rng uniforms integers normals pyrand l N T m0 st (r : rng),
    (forall pi names, ~ In (PIid (DBernouilli pi) names) l) ->
    simulate rng uniforms integers normals pyrand (PProduct l) N T (Some m0) st r = (Err (ExcGeneric "Not implemented"), r).
Proof. exact product_m0. Qed.
Print Assumptions C128_start_refused.

(** Products with a Bernouilli law cannot be built, as processes ... *)
Theorem C128_bernouilli_refuted :
  forall rng uniforms integers normals pyrand l N T m0 st (r : rng) pi names, In (PIid (DBernouilli pi) names) l ->
    simulate rng uniforms integers normals pyrand (PProduct l) N T m0 st r = (Err ExcAttribute, r).
Proof. exact product_bernouilli. Qed.
Print Assumptions C128_bernouilli_refuted.

(** ... or as laws. *)
Theorem C126_bernouilli_refuted :
  forall rng uniforms integers normals l N (r : rng) pi, In (DBernouilli pi) l ->
    draw rng uniforms integers normals (DProduct l) N r = (Err ExcAttribute, r).
Proof. exact draw_bernouilli. Qed.
Print Assumptions C126_bernouilli_refuted.

(** A Bernouilli law of probability pi gives one for the half of the integers of the generator, whatever pi. *)
Theorem C126_bernouilli_draw_refuted :
  forall rng uniforms integers normals pi N (r : rng),
    (forall k, (k < N)%nat -> (fst (integers 2%nat N r) k < 2)%nat) ->
    exists a, draw rng uniforms integers normals (DBernouilli pi) N r = (Ok a, snd (integers 2%nat N r)) /\
      shape a = [N; 1%nat] /\
      forall k, (k < N)%nat -> at_ a [k; 0%nat] = INR (fst (integers 2%nat N r) k).
Proof. exact draw_bernouilli_law. Qed.
Print Assumptions C126_bernouilli_draw_refuted.

Example C126_bernouilli_draw_case : forall k, (k < 5)%nat -> (fst (toy_integers 2%nat 5%nat 0%nat) k < 2)%nat.
Proof. intros k _. apply (Nat.mod_upper_bound _ 2). discriminate. Qed.

Theorem C128_all_factors_refuted :
  forall rng uniforms integers normals pyrand x N T st, cannot_simulate st x -> forall m0 (r : rng),
    exists e, fst (simulate rng uniforms integers normals pyrand x N T m0 st r) = Err e.
Proof. exact simulate_raises. Qed.
Print Assumptions C128_all_factors_refuted.

(** Products with an AR1 are never simulated, those with a VAR1 not without shocks. *)
Example C128_all_factors_example :
  cannot_simulate true (PProduct [PIid (DUNormal 1 0) ["e"%string]; PAr1 (9 / 10) 1 0]) /\
  cannot_simulate false (PProduct [PVar1 (make_var1 (RhoScalar (1 / 2)) (Mat 1 1 (fun _ _ => 1)) None)]).
Proof. cbn. tauto. Qed.
