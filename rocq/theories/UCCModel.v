(** Model of openfermion/circuits/unitary_cc.py: generators of unitary coupled cluster with singles and doubles.
    Coefficients are elements of any commutative ring with conjugation; [small] is the test abs(c) < EQ_TOLERANCE of SymbolicOperator.__iadd__ and
    [nonzero] the test of ndarray.nonzero.  Indices in lists of amplitudes are natural numbers (the code converts them with int). *)
From Verif Require Import Base MatModel OpModel FermiModel JWInterModel.
Open Scope list_scope.
Local Open Scope nat_scope.

(** openfermion/utils/indexing.py:19-40 *)
Definition up_index (index : nat) : nat := 2 * index.
Definition down_index (index : nat) : nat := 2 * index + 1.
(** itertools.product(range(a), range(b)) *)
Definition product_range (a b : nat) : list (nat * nat) := flat_map (fun p => map (fun q => (p, q)) (seq 0 b)) (seq 0 a).

Section U.
  Context {K : cring} (small nonzero : K -> bool).
  Notation op := (fop K).
  Notation add := (fermion_add small).
  Open Scope K_scope.

  (** The two forms of the amplitudes: lists of (indices, amplitude), or arrays of two and of four dimensions. *)
  Record array2 := { dim2 : nat * nat; at2 : nat -> nat -> K }.
  Record array4 := { dim4 : nat * nat * (nat * nat); at4 : nat -> nat -> nat -> nat -> K }.
  Inductive singles := SList (l : list (nat * nat * K)) | SArray (a : array2).
  Inductive doubles := DList (l : list (nat * nat * (nat * nat) * K)) | DArray (a : array4).

  (** 96-103: the indices of the nonzero entries in row-major order; nonzero is an attribute of arrays, not of lists *)
  Definition nonzero2 (a : array2) : list (nat * nat) := filter (fun ij => nonzero (at2 a (fst ij) (snd ij))) (product_range (fst (dim2 a)) (snd (dim2 a))).
  Definition nonzero4 (a : array4) : list (nat * nat * (nat * nat)) :=
    filter (fun ijkl => nonzero (at4 a (fst (fst ijkl)) (snd (fst ijkl)) (fst (snd ijkl)) (snd (snd ijkl))))
      (flat_map (fun ij => map (fun kl => (ij, kl)) (product_range (fst (snd (dim4 a))) (snd (snd (dim4 a))))) (product_range (fst (fst (dim4 a))) (snd (fst (dim4 a))))).
  Definition uccsd_convert_amplitude_format (s : singles) (d : doubles) : result (list (nat * nat * K) * list (nat * nat * (nat * nat) * K)) :=
    match s with
    | SList _ => Err AttributeError
    | SArray a =>
        match d with
        | DList _ => Err AttributeError
        | DArray b => Ok (map (fun ij => (ij, at2 a (fst ij) (snd ij))) (nonzero2 a),
            map (fun ijkl => (ijkl, at4 b (fst (fst ijkl)) (snd (fst ijkl)) (fst (snd ijkl)) (snd (snd ijkl)))) (nonzero4 b))
        end
    end.

  (** generator += FermionOperator(t, c), and if anti_hermitian generator += FermionOperator(u, -c): 63-65, 70-72, 259-263, 267-286, 329-346 *)
  Definition add_excitation (anti_hermitian : bool) (t u : fterm) (c : K) (generator : op) : op :=
    let generator := add generator (fermion_op t c) in
    if anti_hermitian then add generator (fermion_op u (- c)) else generator.
  (** 59-65 *)
  Definition add_single (anti_hermitian : bool) (generator : op) (a : nat * nat * K) : op :=
    let '((i, j), t_ij) := a in
    add_excitation anti_hermitian [(i, true); (j, false)] [(j, true); (i, false)] t_ij generator.
  (** 67-72 *)
  Definition add_double (anti_hermitian : bool) (generator : op) (a : nat * nat * (nat * nat) * K) : op :=
    let '(((i, j), (k, l)), t_ijkl) := a in
    add_excitation anti_hermitian [(i, true); (j, false); (k, true); (l, false)] [(l, true); (k, false); (j, true); (i, false)] t_ijkl generator.
  (** 24-74: both are converted when one of the two is an array *)
  Definition uccsd_generator (s : singles) (d : doubles) (anti_hermitian : bool) : result op :=
    let! lists := match s, d with SList l, DList m => Ok (l, m) | _, _ => uccsd_convert_amplitude_format s d end in
    Ok (fold_left (add_double anti_hermitian) (snd lists) (fold_left (add_single anti_hermitian) (fst lists) [])).

  (** ** The singlet generator *)
  (** int(numpy.ceil(n_electrons / 2)): 121, 166, 237 *)
  Definition occupied_orbitals (n_electrons : nat) : nat := ((n_electrons + 1) / 2)%nat.
  (** n_spatial_orbitals - n_occupied: 122, 167, 238; an int, negative when there are more electrons than spin orbitals *)
  Definition virtual_orbitals (n_qubits n_electrons : nat) : Z := Z.of_nat (n_qubits / 2) - Z.of_nat (occupied_orbitals n_electrons).
  (** 105-130 *)
  Definition uccsd_singlet_paramsize (n_qubits n_electrons : nat) : result Z :=
    if negb (n_qubits mod 2 =? 0)%nat then Err ValueError else
    let n_single_amplitudes := (Z.of_nat (occupied_orbitals n_electrons) * virtual_orbitals n_qubits n_electrons)%Z in
    let n_double_amplitudes := (n_single_amplitudes * (n_single_amplitudes + 1) / 2)%Z in
    Ok (n_single_amplitudes + n_double_amplitudes)%Z.
  (** itertools.product(range(n_virtual), range(n_occupied)); range of a negative number is empty *)
  Definition virtual_occupied (n_qubits n_electrons : nat) : list (nat * nat) :=
    product_range (Z.to_nat (virtual_orbitals n_qubits n_electrons)) (occupied_orbitals n_electrons).

  (** indexing of arrays; an index past the end raises IndexError (indices here are never negative) *)
  Definition get2 (a : array2) (i j : nat) : result K :=
    if (i <? fst (dim2 a))%nat && (j <? snd (dim2 a))%nat then Ok (at2 a i j) else Err IndexError.
  Definition get4 (a : array4) (i j k l : nat) : result K :=
    if ((i <? fst (fst (dim4 a)))%nat && (j <? snd (fst (dim4 a)))%nat) && ((k <? fst (snd (dim4 a)))%nat && (l <? snd (snd (dim4 a)))%nat) then Ok (at4 a i j k l) else Err IndexError.
  (** 133-218 *)
  Definition uccsd_singlet_get_packed_amplitudes (single_amplitudes : array2) (double_amplitudes : array4) (n_qubits n_electrons : nat) : result (list K) :=
    let n_occupied := occupied_orbitals n_electrons in
    let! pairs := mapM (fun pq => let '(p, q) := pq in
      let virtual_spatial := (n_occupied + p)%nat in
      let occupied_spatial := q in
      let! single := get2 single_amplitudes (up_index virtual_spatial) (up_index occupied_spatial) in
      let! double := get4 double_amplitudes (up_index virtual_spatial) (up_index occupied_spatial) (down_index virtual_spatial) (down_index occupied_spatial) in
      Ok (single, double)) (virtual_occupied n_qubits n_electrons) in
    let! doubles_2 := mapM (fun pqrs => let '((p, q), (r, s)) := pqrs in
      get4 double_amplitudes (up_index (n_occupied + p)) (up_index q) (up_index (n_occupied + r)) (up_index s)) (combinations2 (virtual_occupied n_qubits n_electrons)) in
    Ok (map fst pairs ++ map snd pairs ++ doubles_2).

  (** [up_index, down_index][spin] *)
  Definition spin_index (spin : nat) : nat -> nat := if (spin =? 0)%nat then up_index else down_index.
  (** list indexing *)
  Definition get1 (l : list K) (i : nat) : result K := match nth_error l i with Some c => Ok c | None => Err IndexError end.
  (** 245-286: the body of the loop over one occupied-virtual pair, for both spins *)
  Definition pair_excitations (anti_hermitian : bool) (n_occupied : nat) (t1 t2_1 : list K) (generator : op) (ipq : nat * (nat * nat)) : result op :=
    let '(i, (p, q)) := ipq in
    let virtual_spatial := (n_occupied + p)%nat in
    let occupied_spatial := q in
    foldM (fun generator spin =>
      let this_index := spin_index spin in
      let other_index := spin_index (1 - spin) in
      let virtual_this := this_index virtual_spatial in
      let virtual_other := other_index virtual_spatial in
      let occupied_this := this_index occupied_spatial in
      let occupied_other := other_index occupied_spatial in
      let! coeff := get1 t1 i in
      let generator := add_excitation anti_hermitian [(virtual_this, true); (occupied_this, false)] [(occupied_this, true); (virtual_this, false)] coeff generator in
      let! coeff := get1 t2_1 i in
      Ok (add_excitation anti_hermitian [(virtual_this, true); (occupied_this, false); (virtual_other, true); (occupied_other, false)]
        [(occupied_other, true); (virtual_other, false); (occupied_this, true); (virtual_this, false)] coeff generator)) (seq 0 2) generator.
  (** 288-346: the body of the loop over two different pairs, for every two spins *)
  Definition two_pair_excitations (anti_hermitian : bool) (n_occupied : nat) (t2_2 : list K) (generator : op) (ipqrs : nat * (nat * nat * (nat * nat))) : result op :=
    let '(i, ((p, q), (r, s))) := ipqrs in
    let! coeff := get1 t2_2 i in
    Ok (fold_left (fun generator ab => let '(spin_a, spin_b) := ab in
      let virtual_1_a := spin_index spin_a (n_occupied + p) in
      let occupied_1_a := spin_index spin_a q in
      let virtual_2_b := spin_index spin_b (n_occupied + r) in
      let occupied_2_b := spin_index spin_b s in
      if (virtual_1_a =? virtual_2_b)%nat then generator else
      if (occupied_1_a =? occupied_2_b)%nat then generator else
      add_excitation anti_hermitian [(virtual_1_a, true); (occupied_1_a, false); (virtual_2_b, true); (occupied_2_b, false)]
        [(occupied_2_b, true); (virtual_2_b, false); (occupied_1_a, true); (virtual_1_a, false)] coeff generator) (product_range 2 2) generator).
  (** enumerate *)
  Definition enumerate {X} (l : list X) : list (nat * X) := combine (seq 0 (length l)) l.
  (** 221-348.  When n_virtual is negative the three slices differ from the ones here, but both loops are empty and never read them. *)
  Definition uccsd_singlet_generator (packed_amplitudes : list K) (n_qubits n_electrons : nat) (anti_hermitian : bool) : result op :=
    if negb (n_qubits mod 2 =? 0)%nat then Err ValueError else
    let n_occupied := occupied_orbitals n_electrons in
    let n_single_amplitudes := (n_occupied * Z.to_nat (virtual_orbitals n_qubits n_electrons))%nat in
    let t1 := firstn n_single_amplitudes packed_amplitudes in
    let t2_1 := firstn (2 * n_single_amplitudes - n_single_amplitudes) (skipn n_single_amplitudes packed_amplitudes) in
    let t2_2 := skipn (2 * n_single_amplitudes) packed_amplitudes in
    let! generator := foldM (pair_excitations anti_hermitian n_occupied t1 t2_1) (enumerate (virtual_occupied n_qubits n_electrons)) [] in
    foldM (two_pair_excitations anti_hermitian n_occupied t2_2) (enumerate (combinations2 (virtual_occupied n_qubits n_electrons))) generator.
End U.
Arguments array2 : clear implicits.
Arguments array4 : clear implicits.
Arguments singles : clear implicits.
Arguments doubles : clear implicits.
