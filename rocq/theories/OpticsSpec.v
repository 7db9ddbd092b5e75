(** What C65 and C66 mean.  Definitions only, independent of the models of the
    components. *)
From Coq Require Import Reals Qreals List Arith ZArith QArith.
From Verif Require Import Base GraphModel GraphSpec ParamsModel ParamsSpec PropagateSpec Complex ComponentSpec.
Import ListNotations.
Local Open Scope nat_scope.

(** ** Parameters *)
(* entry k of the parameter table of a class may be changed *)
Definition adjustable (c : cls) (k : nat) : Prop := sp_lock (spec_of c) = false /\ nth_error (sp_locks (spec_of c)) k = Some false.
(* as many values as the class declares; those that may not be changed are the
   defaults, the others are numbers between the bounds of the class *)
Definition allowed (c : cls) (ps : list pval) : Prop :=
  length ps = length (sp_def (spec_of c)) /\
  forall k, k < length ps ->
    (adjustable c k /\ exists v lo hi, nth_error ps k = Some (Num v) /\ nth_error (sp_lo (spec_of c)) k = Some (Num lo) /\
       nth_error (sp_hi (spec_of c)) k = Some (Num hi) /\ (lo <= v)%Q /\ (v <= hi)%Q) \/
    (~ adjustable c k /\ nth_error ps k = nth_error (sp_def (spec_of c)) k).
(* coupling ratios for n outputs: one less than outputs, all between 0 and 1 *)
Definition ratios (n : nat) (ps : list pval) : Prop :=
  S (length ps) = n /\ forall v, In v ps -> exists q, v = Num q /\ (0 <= q)%Q /\ (q <= 1)%Q.
(* every component of the graph has values it may have *)
Definition furnished (g : graph) (s : store) : Prop :=
  (forall e, In e (g_edges g) -> exists o ps, has s (cid (e_model (e_dat e))) o ps /\ allowed (ccls (e_model (e_dat e))) ps) /\
  (forall n c, model_at g n c -> exists o ps, has s (cid c) o ps /\
     match family_of (ccls c) with MultiPath => ratios (departures g n) ps | _ => ps = [] end).

(** ** Settings under which a component raises *)
Definition zero (v : pval) : Prop := exists q, v = Num q /\ (q == 0)%Q.
(* a square filter without width *)
Definition blocked (g : graph) (s : store) : Prop := exists e o ps v,
  In e (g_edges g) /\ ccls (e_model (e_dat e)) = SquareFilter /\ has s (cid (e_model (e_dat e))) o ps /\ nth_error ps 0 = Some v /\ zero v.
(* 15 bins of n samples fit into N samples or overlap them symmetrically *)
Definition shapeable (N n : nat) : Prop := N = 2 \/ 15 * n <= N \/ Nat.Even (15 * n - N).
Definition contains (g : graph) (c : cls) : Prop := exists e, In e (g_edges g) /\ ccls (e_model (e_dat e)) = c.

(** ** Strength of fields *)
Local Open Scope R_scope.
(* the square root of the energy *)
Definition strength (x : list C) : R := sqrt (energy x).
Definition total (l : list edge) (f : edge -> R) : R := fold_right (fun e a => f e + a) 0 l.
(* connections that leave a start of the graph; connections that arrive at an end
   of the graph without leaving a start *)
Definition starting (g : graph) (e : edge) : Prop := In e (g_edges g) /\ no_input g (e_src e).
Definition ending (g : graph) (e : edge) : Prop := In e (g_edges g) /\ ~ no_input g (e_src e) /\ no_output g (e_dst e).
(* the connections in the list l are those with property P, each once *)
Definition lists (P : edge -> Prop) (l : list edge) : Prop := NoDup l /\ forall e, In e l <-> P e.

(* the largest factor by which a component may raise the strength of a field: an
   amplifier of G dB 10^(G/20), a split-and-delay line 10^(1/20), any other component 1 *)
Definition gain_limit (c : cls) (ps : list pval) : R :=
  match c, ps with
  | OpticalAmplifier, Num q :: _ => Rpower 10 (Q2R q / 20)
  | IntegratedSplitAndDelayLine, _ => Rpower 10 (1 / 20)
  | _, _ => 1
  end.
Definition limit_of (s : store) (e : edge) : R :=
  match get_params s (cid (e_model (e_dat e))) with Ok ps => gain_limit (ccls (e_model (e_dat e))) ps | Err _ => 1 end.
(* the largest factor by which the outputs of a node together may exceed its inputs:
   the number of outputs of a frequency splitter, 1 for any other component *)
Definition node_limit (g : graph) (n : node) : R :=
  match find (fun x => Nat.eqb (fst x) n) (g_nodes g) with
  | Some (_, d) => match ccls (n_model d) with FrequencySplitter => INR (departures g n) | _ => 1 end
  | None => 1
  end.
(* consecutive connections from node n on, without those that arrive at an end *)
Fixpoint chain (g : graph) (n : node) (l : list edge) : Prop :=
  match l with
  | [] => True
  | e :: r => In e (g_edges g) /\ e_src e = n /\ ~ no_output g (e_dst e) /\ chain g (e_dst e) r
  end.
(* the product of the limits along them *)
Fixpoint chain_limit (g : graph) (s : store) (n : node) (l : list edge) : R :=
  node_limit g n * match l with [] => 1 | e :: r => limit_of s e * chain_limit g s (e_dst e) r end.
(* K bounds the product of the limits along every route from the starting connections *)
Definition route_bound (g : graph) (s : store) (K : R) : Prop := forall e l, starting g e -> chain g (e_dst e) l -> chain_limit g s (e_dst e) l <= K.

(* the strength of the field that a detector received, from the array it saved:
   power samples or the field itself; nothing for a photodiode *)
Definition detected (e : edge) (y : list C) : R :=
  match ccls (e_model (e_dat e)) with
  | MeasurementDevice => sqrt (fold_right (fun z a => fst z + a) 0 y)
  | ElectricFieldMeasurementDevice => strength y
  | _ => 0
  end.
(* a grid on which a programmable filter does not amplify *)
Definition fine_grid (samples : nat) (window : R) : Prop :=
  (50 <= samples)%nat /\ 40 * (INR samples / window / INR (samples - 1)) <= 5 * 10 ^ 12.
