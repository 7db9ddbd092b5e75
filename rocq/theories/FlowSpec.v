(** Specification vocabulary: which graphs can be simulated at all. *)
From Coq Require Import List Arith Bool.
From Verif Require Import Base GraphModel GraphSpec OperatorsModel ParamsModel ParamsSpec PropagateModel SimulateModel SimulateSpec.
Import ListNotations.

(* no start of the graph has two connections leaving it *)
Definition single_feed (g : graph) : Prop := forall n, no_input g n -> departures g n <= 1.

(* every node component can produce a state for each connection leaving its node, and no splitter
   sits on a connection *)
Definition flows (g : graph) : Prop :=
  (forall n c, model_at g n c ->
     match ccls c with
     | TerminalSource | TerminalSink => departures g n <= Nat.max 1 (arrivals g n)
     | VariablePowerSplitter => 1 <= arrivals g n
     | FrequencySplitter => True
     | _ => False
     end) /\
  (forall e, In e (g_edges g) -> family_of (ccls (e_model (e_dat e))) <> MultiPath).

(* the numerical part of the edge components never raises *)
Definition tame {S V R} (ph : physics S V R) (p : nat) : Prop := forall c ps s, exists s', transform ph c ps p s = Ok s'.

(* a noise model that belongs to a propagator has its vectors; phase modulators have a noise
   model with a phase source *)
Definition vectors_there {V R} (x : noise V R) : Prop :=
  forall i m, In (i, m) (n_models x) -> nm_prop m <> None -> forall s, In s (nm_sources m) -> so_vec s <> None.
Definition phases_there {V R} (g : graph) (x : noise V R) : Prop :=
  forall e, In e (g_edges g) -> ccls (e_model (e_dat e)) = PhaseModulator ->
    (exists m, In (cid (e_model (e_dat e)), m) (n_models x)) /\
    (forall m, In (cid (e_model (e_dat e)), m) (n_models x) -> exists s, In s (nm_sources m) /\ so_type s = PhaseFromLinewidth).
Definition ready {V R} (g : graph) (x : noise V R) : Prop := vectors_there x /\ phases_there g x.

(* new noise models come with a phase source *)
Definition keeps_phase {S V R} (a : @action S V R) : Prop :=
  match a with ARenew _ m => exists s, In s (nm_sources m) /\ so_type s = PhaseFromLinewidth | _ => True end.

(* a place whose signal can be asked for: a node without connections leaving it, or a connection *)
Definition reads (g : graph) (q : option place) : Prop :=
  match q with
  | None => exists n, no_output g n
  | Some (PNode n) => no_output g n
  | Some (PEdge i) => exists e, In e (g_edges g) /\ (e_src e, e_dst e, e_key e) = i
  end.
