(** Model of core/testing/_initialize.py, lines 121-133 [create_random_wavefunction].  The numbers are real numbers: rounding is not modelled. *)
From Coq Require Import String Reals ZArith.
From Verif Require Import Base MatModel CircuitModel Cplx WfModel.
Open Scope list_scope.

Section RandomWavefunction.
  (** numpy.random.seed and numpy.random.rand(n), and the values of the sympy functions *)
  Context {G : Type} (seeded : Z -> G) (rand : nat -> G -> G * list R) (F : string -> list C -> C).
  (** [if seed: np.random.seed(seed)]: zero counts as no seed *)
  Definition wf_reseed (seed : option Z) (g : G) : G := match seed with Some s => if Z.eqb s 0 then g else seeded s | None => g end.
  (** 121-133; division by zero makes every amplitude nan, which the constructor rejects *)
  Definition create_random_wavefunction (n_qubits : nat) (seed : option Z) (g : G) : G * result wavefunction :=
    let g := wf_reseed seed g in
    let (g, a) := rand (2 ^ n_qubits) g in
    let (g, b) := rand (2 ^ n_qubits) g in
    let random_vector : list C := combine a b in
    let normalization_factor := sqrt (sum_R (map cabs2 random_vector)) in
    (g, if Req_EM_T normalization_factor 0 then Err ValueError
        else mk_wf F (map (fun z => ENum (fst z / normalization_factor, snd z / normalization_factor)%R) random_vector)).
End RandomWavefunction.
