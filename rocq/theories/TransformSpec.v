(** What a recorded transform says about its component.  Definitions only. *)
From Coq Require Import Reals List Arith Bool.
From Verif Require Import Base GraphModel GraphSpec ParamsModel ParamsSpec PropagateModel PropagateSpec Complex ArrayModel ComponentSpec MoreComponentsModel OpticsModel TransformModel.
Import ListNotations.
Local Open Scope R_scope.

(* components whose recording cannot succeed *)
Definition unrecordable (c : cls) : Prop := c = DispersiveFiber \/ c = PhaseShifter.
Definition recordable (g : graph) : Prop := forall e, In e (g_edges g) -> ~ unrecordable (ccls (e_model (e_dat e))).

(* every run clears the recording of these, unless it makes one *)
Definition clearing (c : cls) : bool :=
  match c with
  | DispersiveFiber | VariableOpticalAttenuator | PhaseModulator | IntensityModulator | WaveShaper | IntegratedSplitAndDelayLine
  | ProgrammableFilter | SquareFilter | DelayLine | IntegratedDelayLine | PhaseShifter => true
  | _ => false
  end.

(* the field [s] enters the component on connection e when the connections carry [val] *)
Definition enters (st : store) (p : grid) (g : graph) (src : list C) (val : edge -> list C) (e : edge) (s : list C) : Prop :=
  exists c ps states i, model_at g (e_src e) c /\ get_params st (cid c) = Ok ps /\
    connector (ccls c) ps p (received g src val (e_src e)) (arrivals g (e_src e)) (departures g (e_src e)) = Ok states /\
    nth_error (leaving g (e_src e)) i = Some e /\ nth_error states i = Some s.

(* the first sample of the time grid that is nearest to a time *)
Definition sample_time (samples : nat) (window : R) (i : nat) : R := - window / 2 + INR i * (window / INR (samples - 1)).
Definition nearest (samples : nat) (window time : R) (i : nat) : Prop :=
  (i < samples)%nat /\
  (forall j, (j < samples)%nat -> Rabs (sample_time samples window i - time) <= Rabs (sample_time samples window j - time)) /\
  (forall j, (j < i)%nat -> Rabs (sample_time samples window i - time) < Rabs (sample_time samples window j - time)).
(* one at that sample and zero elsewhere *)
Definition mark (samples : nat) (window time : R) (r : list R) : Prop :=
  length r = samples /\ exists i, nearest samples window time i /\ nth i r 0 = 1 /\ forall j, j <> i -> nth j r 0 = 0.

(* a factor for each frequency, in rising order of frequency, against spectra in the order of the transform *)
Definition upper (samples k : nat) : nat := (k + samples / 2) mod samples.
Definition filters (samples : nat) (factor : nat -> C) (x y : list C) : Prop :=
  exists X Y, fft x = Ok X /\ fft y = Ok Y /\ forall k, (k < samples)%nat -> nth k Y C0 = Cmul (factor (upper samples k)) (nth k X C0).

(* [t] is right for the component of class c with parameters ps which turned s into y *)
Definition portrays (c : cls) (ps : list pval) (p : grid) (s y : list C) (t : option transform) : Prop :=
  let N := n_samples p in
  let all (rel : list C -> list C -> Prop) := forall x z, length x = N -> component c ps p x = Ok z -> rel x z in
  match c with
  | PhaseModulator => exists r, t = Some [(InTime, r)] /\ length r = N /\
      all (fun x z => forall i, (i < N)%nat -> nth i z C0 = Cmul (nth i x C0) (cis (nth i r 0)))
  | IntensityModulator => exists r, t = Some [(InTime, r)] /\ length r = N /\ (forall i, 0 <= nth i r 0 <= 1) /\
      all (fun x z => forall i, (i < N)%nat -> sample_power z i = Rpower 10 (- (4 / 10)) * nth i r 0 * sample_power x i)
  | SquareFilter => exists a, t = Some [(InFrequency, a)] /\ length a = N /\ all (filters N (fun i => RtoC (nth i a 0)))
  | WaveShaper | ProgrammableFilter => exists a h, t = Some [(InFrequency, a); (InFrequency, h)] /\ length a = N /\ length h = N /\
      all (filters N (fun i => Cmul (RtoC (Rpower 10 (- (225 / 1000)))) (Cmul (RtoC (nth i a 0)) (cis (nth i h 0)))))
  | OpticalAmplifier => exists r, t = Some [(InFrequency, r)] /\ length r = N /\ exists S Y, fft s = Ok S /\ fft y = Ok Y /\
      forall i, (i < N)%nat -> sample_power Y (upper N i) = Rpower 10 (2 * nth i r 0 / 10) * sample_power S (upper N i)
  | DelayLine => exists r d, t = Some [(InTime, r)] /\ real_at ps 0 = Ok d /\ mark N (window_t p) (- d) r
  | IntegratedDelayLine => exists r d, t = Some [(InTime, r)] /\ real_at ps 0 = Ok d /\ mark N (window_t p) (- (d * Rpower 10 (-12))) r
  | IntegratedSplitAndDelayLine => exists r, t = Some [(InTime, r)] /\ length r = N /\
      (* the ratio of the last delay that falls to the sample, zero if none does *)
      forall i, (i < N)%nat ->
        (exists k ratio, (k < 8)%nat /\ real_at ps k = Ok ratio /\ nth i r 0 = ratio /\ nearest N (window_t p) (- (2 ^ k * Rpower 10 (-12))) i /\
           forall k' ratio', (k < k')%nat -> (k' < 8)%nat -> real_at ps k' = Ok ratio' -> ~ nearest N (window_t p) (- (2 ^ k' * Rpower 10 (-12))) i) \/
        (nth i r 0 = 0 /\ forall k ratio, (k < 8)%nat -> real_at ps k = Ok ratio -> ~ nearest N (window_t p) (- (2 ^ k * Rpower 10 (-12))) i)
  | VariableOpticalAttenuator => t = None
  | _ => True
  end.
