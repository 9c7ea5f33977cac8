(** C87: Coulomb, exchange and antisymmetric integrals, molecular data of an operator, loading of molecular Hamiltonians. *)
From Coq Require Import ZArith Ring Lia.
From Verif Require Import Base BaseFacts MatModel MatFacts LiftSpec LiftProofs OpModel OpSpec FermiModel FermiSpec FermiProofs ConjProofs
  TensorModel TensorSpec TensorProps DiagModel DiagSpec DiagProofs ConvModel SectorSpec UCCSpec MatRing UCCProofs UCCProofs5
  MolModel MolSpec MolProofs MolProofs2 MolProofs3 MolProofs4 MolProofs5 MolProofs6 MolProofs7 MolProofs8 MolProps RdmProofs4 MolProps2 RdmProps3 MolIntModel MolIntSpec MolIntProofs GaussQ.
Open Scope list_scope.
Local Open Scope nat_scope.

Section C87.
  Context {K : cring} (small : K -> bool) (half : K).
  Add Ring Kring_c87 : (kth K).
  Open Scope K_scope.
  Notation arr := (TensorModel.ndarray K).
  Notation one_of x := (fun p q => data x [p; q]).
  Notation two_of x := (fun p q r s => data x [p; q; r; s]).
  Notation hamiltonian h nuclear one two := (get_molecular_hamiltonian small half h nuclear one two None None).

  (** The Coulomb matrix holds (pp|qq), the exchange matrix (pq|qp). *)
  Theorem C87_coulomb_exchange (two : arr) : exists J X, get_j (Some two) = Ok J /\ get_k (Some two) = Ok X /\ shape0 J = shape0 two /\ shape0 X = shape0 two /\
    forall p q, data J [p; q] = chemist (two_of two) p p q q /\ data X [p; q] = chemist (two_of two) p q q p.
  Proof. do 2 eexists. split; [reflexivity|]. split; [reflexivity|]. split; [reflexivity|]. split; [reflexivity|]. intros p q. split; reflexivity. Qed.
  Theorem C87_missing one : get_j (K := K) None = Err GenericException /\ get_k (K := K) None = Err GenericException /\ get_antisym small one None = Err GenericException.
  Proof. split; [reflexivity|]. split; reflexivity. Qed.

  (** They give the energy of every occupation state: the diagonal of the molecular Hamiltonian. *)
  Theorem C87_energy h nuclear one two n h' ham J X x : half + half = 1 -> only_zero small -> shape0 one = n -> shape0 two = n ->
    hamiltonian h nuclear one two = Ok (h', ham) -> get_j (Some two) = Ok J -> get_k (Some two) = Ok X -> length x = (2 * n)%nat ->
    tensor_entry h' ham x x = occupation_energy n half nuclear (one_of one) (one_of J) (one_of X) x.
  Proof.
    intros Hh Hz H1 H2 E [= <-] [= <-] Lx. destruct (C78_hamiltonian small half h nuclear one two n H1 H2) as (h'' & p' & E' & _ & _ & _ & V). rewrite E in E'. injection E' as <- <-.
    rewrite V by assumption. rewrite (electronic_diag half Hh n x Lx). assert (Z : forall c, clipped small c = c) by (intros c; unfold clipped; destruct (small c) eqn:Ec; [symmetry; apply Hz; exact Ec|reflexivity]).
    unfold occupation_energy. f_equal. f_equal; [apply bigsum_ext; intros p _; rewrite Z; reflexivity|]. f_equal. apply bigsum_ext. intros p _. apply bigsum_ext. intros q _. rewrite !Z. reflexivity.
  Qed.

  Lemma half_split i n : (i < 2 * n)%nat -> exists p a, (p < n)%nat /\ (a < 2)%nat /\ i = (2 * p + a)%nat /\ (i / 2 = p)%nat /\ (i mod 2 = a)%nat.
  Proof.
    intros Hi. exists (i / 2)%nat, (i mod 2)%nat. split; [apply Nat.div_lt_upper_bound; lia|]. split; [apply Nat.mod_upper_bound; lia|]. split; [apply Nat.div_mod; lia|]. split; reflexivity.
  Qed.
  Lemma spin_two_entry n (B : arr) (g : nat -> nat -> nat -> nat -> K) i j k l : is_spin2 n B g -> (i < 2 * n)%nat -> (j < 2 * n)%nat -> (k < 2 * n)%nat -> (l < 2 * n)%nat -> data B [i; j; k; l] = spin_two g i j k l.
  Proof.
    intros HB Hi Hj Hk Hl. unfold spin_two. destruct (half_split i n Hi) as (p & a & Hp & Ha & -> & -> & ->). destruct (half_split j n Hj) as (q & b & Hq & Hb & -> & -> & ->).
    destruct (half_split k n Hk) as (r & c & Hr & Hc & -> & -> & ->). destruct (half_split l n Hl) as (s & d & Hs & Hd & -> & -> & ->). apply HB; assumption.
  Qed.
  Lemma spin_one_entry n (A : arr) (f : nat -> nat -> K) i j : is_spin1 n A f -> (i < 2 * n)%nat -> (j < 2 * n)%nat -> data A [i; j] = spin_one f i j.
  Proof.
    intros HA Hi Hj. unfold spin_one. destruct (half_split i n Hi) as (p & a & Hp & Ha & -> & -> & ->). destruct (half_split j n Hj) as (q & b & Hq & Hb & -> & -> & ->). apply HA; assumption.
  Qed.
  Lemma spin_two_exchange n (g : nat -> nat -> nat -> nat -> K) i j k l : exchange_symmetric n g -> (i < 2 * n)%nat -> (j < 2 * n)%nat -> (k < 2 * n)%nat -> (l < 2 * n)%nat -> spin_two g i j k l = spin_two g j i l k.
  Proof.
    intros Hx Hi Hj Hk Hl. unfold spin_two. rewrite (Bool.andb_comm (Nat.eqb (j mod 2) (k mod 2))). destruct (_ && _)%bool; [|reflexivity]. apply Hx; apply Nat.div_lt_upper_bound; lia.
  Qed.

  (** get_antisym holds <ij||kl> = <ij|kl> - <ij|lk> of the spin orbitals, antisymmetric in the second pair, and in the first one if the integrals are symmetric
      under exchange of the electrons; a quarter of it is the two-body part of the molecular Hamiltonian. *)
  Theorem C87_antisym h nuclear one two n : half + half = 1 -> shape0 one = n -> shape0 two = n -> let g := fun p q r s => clipped small (data two [p; q; r; s]) in
    exists A h' ham, get_antisym small (Some one) (Some two) = Ok A /\ hamiltonian h nuclear one two = Ok (h', ham) /\ shape0 A = (2 * n)%nat /\
      (forall i j k l, (i < 2 * n)%nat -> (j < 2 * n)%nat -> (k < 2 * n)%nat -> (l < 2 * n)%nat ->
        data A [i; j; k; l] = physicist (spin_two g) i j k l - physicist (spin_two g) i j l k /\ data A [i; j; l; k] = - data A [i; j; k; l] /\
        (exchange_symmetric n g -> data A [j; i; k; l] = - data A [i; j; k; l])) /\
      forall x y, length x = (2 * n)%nat -> length y = (2 * n)%nat ->
        tensor_entry h' ham x y = nuclear * ent (eye (2 ^ (2 * n))) (bval x) (bval y) +
          (bigsum (2 * n) (fun i => bigsum (2 * n) (fun j => spin_one (fun p q => clipped small (data one [p; q])) i j * ent (fterm_matrix (2 * n) [(i, true); (j, false)]) (bval x) (bval y))) +
           half * half * bigsum (2 * n) (fun i => bigsum (2 * n) (fun j => bigsum (2 * n) (fun k => bigsum (2 * n) (fun l =>
             data A [i; j; k; l] * ent (fterm_matrix (2 * n) [(i, true); (j, true); (l, false); (k, false)]) (bval x) (bval y)))))).
  Proof.
    intros Hh H1 H2 g. destruct (spin_tensors_ok small (fun c => c) one two n H1 H2) as (A1 & B & E & SA & SB & IA & IB).
    destruct (interaction_ok_new small h nuclear A1 {| shape0 := shape0 B; data := fun i => half * data B i |} (2 * n) SA SB) as (p & Ep & Op & Np & Bp).
    exists (antisymtei B). do 2 eexists. split; [unfold get_antisym, spinorb_from_spatial; rewrite E; reflexivity|].
    split; [unfold get_molecular_hamiltonian, spinorb_from_spatial; cbn [rbind fst snd]; rewrite E; cbn [rbind fst snd]; exact Ep|]. split; [exact SB|].
    assert (Q : forall i j k l, data (antisymtei B) [i; j; k; l] = data B [i; j; l; k] - data B [i; j; k; l]) by reflexivity. split.
    - intros i j k l Hi Hj Hk Hl. rewrite !Q. unfold physicist. rewrite !(spin_two_entry n B g) by (assumption || exact IB). split; [reflexivity|]. split; [ring|]. intros Hx.
      rewrite (spin_two_exchange n g j i l k), (spin_two_exchange n g j i k l) by assumption. ring.
    - intros x y Hx Hy. assert (Bx : (bval x < 2 ^ (2 * n))%nat) by (rewrite <- Hx; apply bval_lt). assert (By : (bval y < 2 ^ (2 * n))%nat) by (rewrite <- Hy; apply bval_lt).
      destruct (MolProofs6.read_app h A1 {| shape0 := shape0 B; data := fun i => half * data B i |}) as [R1 R2].
      unfold tensor_entry. rewrite Bp, Np. cbn [fold_right fst snd length sum_over combine element]. rewrite R1, R2. cbn [data].
      set (u := bval x) in *. set (v := bval y) in *. set (N := (2 * n)%nat) in *.
      set (F := fun i j k l => ent (fterm_matrix (K := K) N [(i, true); (j, true); (k, false); (l, false)]) u v).
      assert (SW : forall i j k l, (k < N)%nat -> (l < N)%nat -> F i j l k = - F i j k l) by (intros i j k l Hk Hl; unfold F; rewrite !T4_ent by assumption; exact (T4_swap_a N i j l k Hl Hk u v Bx By)).
      assert (X : bigsum N (fun i => bigsum N (fun j => bigsum N (fun k => bigsum N (fun l => half * data B [i; j; k; l] * F i j k l)))) =
        half * half * bigsum N (fun i => bigsum N (fun j => bigsum N (fun k => bigsum N (fun l => data (antisymtei B) [i; j; k; l] * F i j l k))))).
      { rewrite bigsum_mul_l. apply bigsum_ext. intros i _. rewrite bigsum_mul_l. apply bigsum_ext. intros j _.
        transitivity (half * half * (bigsum N (fun k => bigsum N (fun l => data B [i; j; l; k] * F i j l k)) + bigsum N (fun k => bigsum N (fun l => data B [i; j; k; l] * F i j k l)))).
        - rewrite (bigsum_swap N N (fun k l => data B [i; j; l; k] * F i j l k)). set (S := bigsum N (fun k => bigsum N (fun l => data B [i; j; k; l] * F i j k l))).
          transitivity (half * S); [unfold S; rewrite bigsum_mul_l; apply bigsum_ext; intros k _; rewrite bigsum_mul_l; apply bigsum_ext; intros l _; ring|].
          transitivity (half * (half + half) * S); [rewrite Hh; ring|ring].
        - f_equal. rewrite <- bigsum_add. apply bigsum_ext. intros k Hk. rewrite <- bigsum_add. apply bigsum_ext. intros l Hl. rewrite Q, (SW i j k l Hk Hl). ring. }
      fold F. cbn [sum_over]. transitivity (nuclear * ent (eye (2 ^ N)) u v + (bigsum N (fun i => bigsum N (fun j => data A1 [i; j] * ent (fterm_matrix N [(i, true); (j, false)]) u v))
        + (bigsum N (fun i => bigsum N (fun j => bigsum N (fun k => bigsum N (fun l => half * data B [i; j; k; l] * F i j k l)))) + 0))); [reflexivity|]. rewrite X.
      f_equal. f_equal; [|unfold F; ring]. apply bigsum_ext. intros i Hi. apply bigsum_ext. intros j Hj. rewrite (spin_one_entry n A1 (fun p q => clipped small (data one [p; q]))) by (assumption || exact IA). reflexivity.
  Qed.

  (** ** Molecular data of an interaction operator *)
  Lemma restrict_ok (x : arr) l : (forall p, In p l -> (p < shape0 x)%nat) -> restrict x l = Ok {| shape0 := length l; data := fun i => data x (map (fun k => nth k l 0%nat) i) |}.
  Proof. intros H. unfold restrict. rewrite (proj2 (forallb_forall _ l)); [reflexivity|]. intros p Hp. apply Nat.ltb_lt. now apply H. Qed.
  (** The elements of the tensors between every mode, or between the even ones. *)
  Theorem C87_data h (op : ptensor K) c r1 r2 multiplicity n_electrons (reduce_spin : bool) :
    n_body_tensors op = [([], Num c); ([true; false], Arr r1); ([true; true; false; false], Arr r2)] -> shape0 (read h r1) = n_qubits op -> shape0 (read h r2) = n_qubits op ->
    let k := if reduce_spin then ((n_qubits op + 1) / 2)%nat else n_qubits op in let mode := fun p => if reduce_spin then (2 * p)%nat else p in
    exists m, get_molecular_data h op true (Some multiplicity) n_electrons reduce_spin = Ok m /\
      m_nuclear_repulsion m = c /\ m_n_orbitals m = k /\ m_n_qubits m = n_qubits op /\ m_n_electrons m = n_electrons /\ m_multiplicity m = multiplicity /\
      shape0 (m_one_body_integrals m) = k /\ shape0 (m_two_body_integrals m) = k /\ shape0 (m_overlap_integrals m) = k /\
      (forall p q, (p < k)%nat -> (q < k)%nat -> data (m_one_body_integrals m) [p; q] = data (read h r1) [mode p; mode q] /\ data (m_overlap_integrals m) [p; q] = if Nat.eqb p q then 1 else 0) /\
      (forall p q r s, (p < k)%nat -> (q < k)%nat -> (r < k)%nat -> (s < k)%nat -> data (m_two_body_integrals m) [p; q; r; s] = data (read h r2) [mode p; mode q; mode r; mode s]).
  Proof.
    intros Eb S1 S2 k mode. set (l := if reduce_spin then map (fun k => 2 * k)%nat (seq 0 k) else seq 0 k).
    assert (El : (if reduce_spin then map (fun k => 2 * k)%nat (seq 0 ((n_qubits op + 1) / 2)) else seq 0 (n_qubits op)) = l) by (unfold l, k; destruct reduce_spin; reflexivity).
    assert (Ll : length l = k) by (unfold l; destruct reduce_spin; rewrite ?map_length, seq_length; reflexivity).
    assert (Nl : forall p, (p < k)%nat -> nth p l 0%nat = mode p).
    { intros p Hp. unfold l, mode. destruct reduce_spin; [|rewrite seq_nth by exact Hp; reflexivity]. rewrite (nth_indep _ 0%nat ((fun k => 2 * k)%nat 0%nat)) by (rewrite map_length, seq_length; exact Hp). rewrite (map_nth (fun k => 2 * k)%nat), seq_nth by exact Hp. reflexivity. }
    assert (Bl : forall p, In p l -> (p < n_qubits op)%nat).
    { intros p Hp. apply (In_nth _ _ 0%nat) in Hp as (q & Hq & <-). rewrite Ll in Hq. rewrite Nl by exact Hq. unfold mode, k in *. destruct reduce_spin; [|exact Hq].
      pose proof (Nat.div_mod (n_qubits op + 1) 2 ltac:(lia)). pose proof (Nat.mod_upper_bound (n_qubits op + 1) 2 ltac:(lia)). lia. }
    eexists. split.
    - unfold get_molecular_data, TensorModel.constant, array_at. rewrite Eb. cbn [dget key_eqb list_eqb Bool.eqb rbind andb]. rewrite El.
      rewrite !restrict_ok by (intros p Hp; rewrite ?S1, ?S2; now apply Bl). cbn [rbind]. reflexivity.
    - cbn [m_nuclear_repulsion m_n_orbitals m_n_qubits m_n_electrons m_multiplicity m_one_body_integrals m_two_body_integrals m_overlap_integrals shape0 data map nth].
      rewrite Ll. do 8 (split; [reflexivity|]). split.
      + intros p q Hp Hq. rewrite !Nl by assumption. split; reflexivity.
      + intros p q r s Hp Hq Hr Hs. rewrite !Nl by assumption. reflexivity.
  Qed.
  (** Without geometry, basis or multiplicity, as the default arguments are, no molecule can be made. *)
  Theorem C87_data_undescribed h op multiplicity n_electrons reduce_spin : get_molecular_data (K := K) h op false multiplicity n_electrons reduce_spin = Err ValueError /\
    forall described, get_molecular_data h op described None n_electrons reduce_spin = Err ValueError.
  Proof. split; [reflexivity|]. intros []; reflexivity. Qed.
  (** Of a molecular Hamiltonian: the integrals of the molecule, but half the two-electron integrals. *)
  Theorem C87_data_hamiltonian h nuclear one two n h' ham multiplicity n_electrons : half + half = 1 -> only_zero small -> shape0 one = n -> shape0 two = n -> hamiltonian h nuclear one two = Ok (h', ham) ->
    exists m, get_molecular_data h' ham true (Some multiplicity) n_electrons true = Ok m /\ m_nuclear_repulsion m = nuclear /\ m_n_orbitals m = n /\ m_n_qubits m = (2 * n)%nat /\
      shape0 (m_one_body_integrals m) = n /\ shape0 (m_two_body_integrals m) = n /\
      (forall p q, (p < n)%nat -> (q < n)%nat -> data (m_one_body_integrals m) [p; q] = data one [p; q]) /\
      (forall p q r s, (p < n)%nat -> (q < n)%nat -> (r < n)%nat -> (s < n)%nat -> data (m_two_body_integrals m) [p; q; r; s] = half * data two [p; q; r; s]) /\
      forall h2 ham2, hamiltonian h' (m_nuclear_repulsion m) (m_one_body_integrals m) {| shape0 := n; data := fun i => data (m_two_body_integrals m) i + data (m_two_body_integrals m) i |} = Ok (h2, ham2) ->
        forall x y, length x = (2 * n)%nat -> length y = (2 * n)%nat -> tensor_entry h2 ham2 x y = tensor_entry h' ham x y.
  Proof.
    intros Hh Hz H1 H2 E. assert (Z : forall c, clipped small c = c) by (intros c; unfold clipped; destruct (small c) eqn:Ec; [symmetry; apply Hz; exact Ec|reflexivity]).
    destruct (spin_tensors_ok small (fun c => c) one two n H1 H2) as (A1 & B & ET & SA & SB & IA & IB).
    set (B' := {| shape0 := shape0 B; data := fun i => half * data B i |}).
    destruct (interaction_ok_new small h nuclear A1 B' (2 * n) SA SB) as (p & Ep & Op & Np & Bp).
    assert (E' : hamiltonian h nuclear one two = Ok (h ++ [A1; B'], p)).
    { unfold get_molecular_hamiltonian, spinorb_from_spatial. cbn [rbind fst snd]. rewrite ET. cbn [rbind fst snd]. exact Ep. }
    pose proof E as EE. rewrite E' in E. injection E as <- <-.
    destruct (MolProofs6.read_app h A1 B') as [R1 R2].
    destruct (C87_data (h ++ [A1; B']) p nuclear _ _ multiplicity n_electrons true Bp) as (m & Em & M1 & M2 & M3 & M4 & M5 & M6 & M7 & M8 & M9 & M10); [rewrite R1, Np; exact SA|rewrite R2, Np; exact SB|].
    assert (Ek : ((n_qubits p + 1) / 2 = n)%nat) by (rewrite Np; replace (2 * n + 1)%nat with (1 + n * 2)%nat by lia; rewrite Nat.div_add by lia; reflexivity). rewrite Ek in *.
    assert (F1 : forall p q, (p < n)%nat -> (q < n)%nat -> data (m_one_body_integrals m) [p; q] = data one [p; q]).
    { intros u v Hu Hv. rewrite (proj1 (M9 u v Hu Hv)), R1. pose proof (IA u v 0%nat 0%nat Hu Hv ltac:(lia) ltac:(lia)) as Q. rewrite !Nat.add_0_r in Q. rewrite Q. cbn [Nat.eqb]. apply Z. }
    assert (F2 : forall p q r s, (p < n)%nat -> (q < n)%nat -> (r < n)%nat -> (s < n)%nat -> data (m_two_body_integrals m) [p; q; r; s] = half * data two [p; q; r; s]).
    { intros u v r s Hu Hv Hr Hs. rewrite (M10 u v r s Hu Hv Hr Hs), R2. cbn [data B']. pose proof (IB u v r s 0%nat 0%nat 0%nat 0%nat Hu Hv Hr Hs ltac:(lia) ltac:(lia) ltac:(lia) ltac:(lia)) as Q. rewrite !Nat.add_0_r in Q. rewrite Q. cbn [Nat.eqb andb]. f_equal. apply Z. }
    exists m. split; [exact Em|]. split; [exact M1|]. split; [exact M2|]. split; [rewrite M3; exact Np|]. split; [exact M6|]. split; [exact M7|]. split; [exact F1|]. split; [exact F2|].
    intros h2 ham2 EH x y Lx Ly. rewrite M1 in EH.
    destruct (C78_hamiltonian small half h nuclear one two n H1 H2) as (ha & pa & Ea & _ & _ & _ & Va). rewrite E' in Ea. injection Ea as <- <-.
    destruct (C78_hamiltonian small half (h ++ [A1; B']) nuclear (m_one_body_integrals m) {| shape0 := n; data := fun i => data (m_two_body_integrals m) i + data (m_two_body_integrals m) i |} n M6 eq_refl) as (hb & pb & Eb & _ & _ & _ & Vb).
    rewrite EH in Eb. injection Eb as <- <-. rewrite Va, Vb by assumption. apply (electronic_ext small); [rewrite <- Lx; apply bval_lt|rewrite <- Ly; apply bval_lt| |].
    - intros u v Hu Hv. rewrite !Z. now apply F1.
    - intros u v r s Hu Hv Hr Hs. rewrite !Z. cbn [data]. rewrite (F2 u v r s) by assumption. transitivity ((half + half) * data two [u; v; r; s]); [ring|]. rewrite Hh. ring.
  Qed.

  (** ** Loading a molecular Hamiltonian *)
  Notation load h nuclear one two ne na no := (load_molecular_hamiltonian small half h nuclear one two ne na no).
  Lemma increasing_seq m k : increasing (seq m k).
  Proof. revert m. induction k as [|k IH]; intros m; [exact I|]. cbn [seq]. destruct k as [|k]; [exact I|]. cbn [seq increasing]. split; [lia|]. apply (IH (S m)). Qed.
  Lemma core_active n m k : (m + k <= n)%nat -> active_space n (seq 0 m) (seq m k).
  Proof.
    intros L. split; [apply seq_NoDup|]. split; [apply increasing_seq|]. split; [intros p Hp; rewrite in_seq in *; lia|]. intros p [Hp|Hp]; apply in_seq in Hp; lia.
  Qed.
  Lemma indices_ok n c k : (0 <= c)%Z -> mapM (fun j => from_end n (c + Z.of_nat j)) (seq 0 k) = Ok (seq (Z.to_nat c) k).
  Proof.
    intros Hc. assert (G : forall s, mapM (fun j => from_end n (c + Z.of_nat j)) (seq s k) = Ok (seq (Z.to_nat c + s) k)).
    { induction k as [|k IH]; intros s; [reflexivity|]. cbn [seq mapM]. unfold from_end at 1. destruct (Z.ltb_spec (c + Z.of_nat s) 0); [lia|]. cbn [rbind]. rewrite IH. cbn [rbind]. f_equal. f_equal; [lia|]. f_equal. lia. }
    rewrite (G 0%nat). f_equal. f_equal. lia.
  Qed.
  (** With active electrons and orbitals: the other electrons fill the lowest orbitals, and the next ones are active. *)
  Theorem C87_load h nuclear one two n n_electrons n_active_electrons n_active_orbitals : half + half = 1 -> only_zero small -> shape0 one = n -> shape0 two = n -> exchange_symmetric n (two_of two) ->
    (n_active_electrons <= n_electrons)%Z -> let m := Z.to_nat ((n_electrons - n_active_electrons) / 2) in (0 < n_active_orbitals)%nat -> (m + n_active_orbitals <= n)%nat ->
    exists h' p, load h nuclear one two n_electrons (Some n_active_electrons) (Some n_active_orbitals) = Ok (h', p) /\ n_qubits p = (2 * n_active_orbitals)%nat /\ interaction_ok h' p /\
      forall hf f b b' x y, hamiltonian h nuclear one two = Ok (hf, f) -> extends n (seq 0 m) (seq m n_active_orbitals) b x -> extends n (seq 0 m) (seq m n_active_orbitals) b' y ->
        tensor_entry h' p b b' = tensor_entry hf f x y.
  Proof.
    intros Hh Hz H1 H2 Hx Le m Hno Hn. assert (Hc : (0 <= (n_electrons - n_active_electrons) / 2)%Z) by (apply Z.div_pos; lia).
    destruct (C78_active small half h nuclear one two n (seq 0 m) (seq m n_active_orbitals) Hh Hz H1 H2 (core_active n m n_active_orbitals Hn)) as (h' & p & E & O & P & N & V); [destruct n_active_orbitals; [lia|discriminate]|exact Hx|].
    exists h', p. split; [|split; [rewrite N, seq_length; reflexivity|split; [exact O|exact V]]].
    unfold load_molecular_hamiltonian. rewrite indices_ok by exact Hc. cbn [rbind]. exact E.
  Qed.
  Lemma electrons_orbitals n : forall x, length x = (2 * n)%nat -> electrons x = list_sum (map (fun p => (Nat.b2n (nth (2 * p) x false) + Nat.b2n (nth (2 * p + 1) x false))%nat) (seq 0 n)).
  Proof.
    induction n as [|n IH]; intros x Lx; [destruct x; [reflexivity|discriminate]|]. destruct x as [|a [|b x]]; [discriminate| |]; cbn [length] in Lx; [lia|].
    cbn [seq map list_sum fold_right]. rewrite <- seq_shift, map_map. rewrite (map_ext _ (fun p => (Nat.b2n (nth (2 * p) x false) + Nat.b2n (nth (2 * p + 1) x false))%nat)).
    - unfold electrons in *. rewrite <- IH by lia. destruct a, b; reflexivity.
    - intros p. replace (2 * S p + 1)%nat with (S (S (2 * p + 1))) by lia. replace (2 * S p)%nat with (S (S (2 * p))) by lia. reflexivity.
  Qed.
  Lemma list_sum_const {X} (f : X -> nat) c l : (forall a, In a l -> f a = c) -> list_sum (map f l) = (c * length l)%nat.
  Proof. induction l as [|a l IH]; intros H; [cbn; lia|]. cbn [map list_sum fold_right length]. rewrite (H a) by now left. unfold list_sum in IH. rewrite IH by (intros; apply H; now right). lia. Qed.
  (** The numbers of electrons correspond: the states hold two electrons more for each occupied orbital. *)
  Theorem C87_load_electrons n m k b x : (m + k <= n)%nat -> extends n (seq 0 m) (seq m k) b x -> electrons x = (2 * m + electrons b)%nat.
  Proof.
    intros L (Lb & Lx & X1 & X2 & X3). rewrite seq_length in Lb, X2. rewrite (electrons_orbitals n x Lx), (electrons_orbitals k b Lb).
    replace n with (m + (k + (n - m - k)))%nat at 1 by lia. rewrite !seq_app, !map_app, !list_sum_app. cbn [Nat.add].
    rewrite (list_sum_const _ 2%nat (seq 0 m)), (list_sum_const _ 0%nat (seq (m + k) _)).
    - rewrite seq_length. enough (S : list_sum (map (fun p => (Nat.b2n (nth (2 * p) x false) + Nat.b2n (nth (2 * p + 1) x false))%nat) (seq m k)) = list_sum (map (fun p => (Nat.b2n (nth (2 * p) b false) + Nat.b2n (nth (2 * p + 1) b false))%nat) (seq 0 k))) by lia.
      replace (seq m k) with (map (fun j => m + j)%nat (seq 0 k)) by (clear; apply nth_ext with (d := (m + 0)%nat) (d' := (m + 0)%nat); [rewrite map_length, !seq_length; reflexivity|]; intros; rewrite map_length, seq_length in *; rewrite (map_nth (fun j => m + j)%nat), !seq_nth by lia; lia).
      rewrite map_map. f_equal. apply map_ext_in. intros j Hj. apply in_seq in Hj. destruct (X2 j ltac:(lia)) as [Y1 Y2]. rewrite seq_nth in Y1, Y2 by lia. rewrite Y1, Y2. reflexivity.
    - intros p Hp. apply in_seq in Hp. destruct (X3 p) as [Y1 Y2]; [lia|rewrite in_seq; lia|rewrite in_seq; lia|]. rewrite Y1, Y2. reflexivity.
    - intros p Hp. destruct (X1 p Hp) as [Y1 Y2]. rewrite Y1, Y2. reflexivity.
  Qed.
  (** Without these arguments it is the whole molecule; with active orbitals only, they are the lowest ones and nothing is filled; with active electrons only it fails. *)
  Theorem C87_load_defaults h nuclear one two n_electrons : load h nuclear one two n_electrons None None = hamiltonian h nuclear one two /\
    (forall k, load h nuclear one two n_electrons None (Some k) = get_molecular_hamiltonian small half h nuclear one two None (Some (seq 0 k))) /\
    forall k, load h nuclear one two n_electrons (Some k) None = Err TypeError.
  Proof.
    split; [reflexivity|]. split; [|reflexivity]. intros k. unfold load_molecular_hamiltonian. rewrite indices_ok by lia. reflexivity.
  Qed.
  (** More active electrons than the molecule has are not refused: two more select the last orbital as the first active one. *)
  Theorem C87_load_too_many_refuted h nuclear one two n_electrons : (0 < shape0 one)%nat ->
    load h nuclear one two n_electrons (Some (n_electrons + 2)%Z) (Some 2%nat) = get_molecular_hamiltonian small half h nuclear one two (Some []) (Some [shape0 one - 1; 0]%nat).
  Proof.
    intros Hn. unfold load_molecular_hamiltonian. replace (n_electrons - (n_electrons + 2))%Z with (-2)%Z by lia. change (-2 / 2)%Z with (-1)%Z. cbn [seq mapM]. unfold from_end.
    change (-1 + Z.of_nat 0 <? 0)%Z with true. change (-1 + Z.of_nat 1 <? 0)%Z with false. cbn iota. change (-1 + Z.of_nat 0)%Z with (-1)%Z. change (-1 + Z.of_nat 1)%Z with 0%Z.
    destruct (Z.ltb_spec (-1 + Z.of_nat (shape0 one)) 0); [lia|]. cbn [rbind]. replace (Z.to_nat (-1 + Z.of_nat (shape0 one))) with (shape0 one - 1)%nat by lia. reflexivity.
  Qed.
End C87.

(** The numbers of electrons of both spins add up, and differ by the multiplicity less one, exactly when the multiplicity fits the number of electrons. *)
Theorem C87_spins n_electrons multiplicity : let up := get_n_alpha_electrons n_electrons multiplicity in let down := get_n_beta_electrons n_electrons multiplicity in
  (Z.odd (n_electrons + multiplicity) = true -> up + down = n_electrons /\ up - down = multiplicity - 1)%Z /\
  (Z.odd (n_electrons + multiplicity) = false -> up + down = n_electrons - 1)%Z.
Proof.
  intros up down. unfold up, down, get_n_alpha_electrons, get_n_beta_electrons. split; intros H.
  - apply Z.odd_spec in H as [k Hk]. assert (E : (n_electrons + (multiplicity - 1) = k * 2)%Z) by lia. rewrite E. assert (E2 : (n_electrons - (multiplicity - 1) = (k - multiplicity + 1) * 2)%Z) by lia. rewrite E2. rewrite !Z.div_mul by lia. lia.
  - assert (Ev : Z.even (n_electrons + multiplicity) = true) by (rewrite <- Z.negb_odd, H; reflexivity). apply Z.even_spec in Ev as [k Hk].
    assert (E : (n_electrons + (multiplicity - 1) = (-1) + k * 2)%Z) by lia. rewrite E. assert (E2 : (n_electrons - (multiplicity - 1) = 1 + (k - multiplicity) * 2)%Z) by lia. rewrite E2. rewrite !Z.div_add by lia. change (-1 / 2)%Z with (-1)%Z. change (1 / 2)%Z with 0%Z. lia.
Qed.

(** ** Making a molecule of the Hamiltonian and the Hamiltonian of that molecule is not the identity: it halves the repulsion of the electrons. *)
Definition c87_one : TensorModel.ndarray GQ := {| shape0 := 1; data := fun _ => gq 4 0 |}.
Definition c87_two : TensorModel.ndarray GQ := {| shape0 := 1; data := fun _ => gq 8 0 |}.
Theorem C87_roundtrip_refuted : exists h ham m h2 ham2, get_molecular_hamiltonian gq_zero qhalf [] (gq 4 0) c87_one c87_two None None = Ok (h, ham) /\
  get_molecular_data h ham true (Some 1%Z) (Some 2%Z) true = Ok m /\
  get_molecular_hamiltonian gq_zero qhalf h (m_nuclear_repulsion m) (m_one_body_integrals m) (m_two_body_integrals m) None None = Ok (h2, ham2) /\
  tensor_entry h ham [true; true] [true; true] = gq 20 0 /\ tensor_entry h2 ham2 [true; true] [true; true] = gq 16 0.
Proof.
  destruct (C78_hamiltonian gq_zero qhalf [] (gq 4 0) c87_one c87_two 1 eq_refl eq_refl) as (h & ham & E & _).
  destruct (C87_data_hamiltonian gq_zero qhalf [] (gq 4 0) c87_one c87_two 1 h ham 1%Z (Some 2%Z) qhalf_two gq_only_zero eq_refl eq_refl E) as (m & Em & M1 & M2 & M3 & M4 & M5 & M6 & M7 & _).
  destruct (C78_hamiltonian gq_zero qhalf h (m_nuclear_repulsion m) (m_one_body_integrals m) (m_two_body_integrals m) 1 M4 M5) as (h2 & ham2 & E2 & _).
  exists h, ham, m, h2, ham2. split; [exact E|]. split; [exact Em|]. split; [exact E2|]. split.
  - rewrite (C87_energy gq_zero qhalf [] (gq 4 0) c87_one c87_two 1 h ham _ _ [true; true] qhalf_two gq_only_zero eq_refl eq_refl E eq_refl eq_refl eq_refl). apply gq_eqb_eq. vm_compute. reflexivity.
  - rewrite (C87_energy gq_zero qhalf h _ _ _ 1 h2 ham2 _ _ [true; true] qhalf_two gq_only_zero M4 M5 E2 eq_refl eq_refl eq_refl).
    unfold occupation_energy. cbn [bigsum]. rewrite M1, M6 by lia. 
    change (data (j_mat (m_two_body_integrals m)) [0; 0]) with (data (m_two_body_integrals m) [0; 0; 0; 0]). change (data (k_mat (m_two_body_integrals m)) [0; 0]) with (data (m_two_body_integrals m) [0; 0; 0; 0]).
    rewrite M7 by lia. apply gq_eqb_eq. vm_compute. reflexivity.
Qed.

(** ** Cases: the molecule of C78 has three orbitals *)
Example C87_hypotheses : kadd qhalf qhalf = (k1 : GQ) /\ only_zero (K := GQ) gq_zero /\ exchange_symmetric (K := GQ) 3 (fun p q r s => data c78_two [p; q; r; s]) /\
  extends 3 (seq 0 1) (seq 1 1) [true; false] [true; true; true; false; false; false].
Proof.
  split; [exact qhalf_two|]. split; [exact gq_only_zero|]. split; [exact (proj1 (proj2 (proj2 (proj2 C78_hypotheses))))|].
  split; [reflexivity|]. split; [reflexivity|]. split; [intros p [<-|[]]; split; reflexivity|]. split.
  - intros k Hk. cbn [seq length] in Hk. destruct k; [|lia]. split; reflexivity.
  - intros p Hp N1 N2. cbn [seq In] in *. destruct p as [|[|[|p]]]; [exfalso; apply N1; now left|exfalso; apply N2; now left|split; reflexivity|lia].
Qed.
(** (pp|qq) and (pq|qp) of the integrals (pq|rs) = (1 + p q)(1 + r s): 2 * 5 and 3 * 3 for p = 1, q = 2 *)
Example C87_coulomb_case : match get_j (Some c78_two), get_k (Some c78_two) with
  | Ok J, Ok X => gq_eqb (data J [1; 2]) (gq 40 0) && gq_eqb (data X [1; 2]) (gq 36 0) && gq_eqb (data X [0; 2]) (gq 4 0) | _, _ => false end = true.
Proof. vm_compute. reflexivity. Qed.
(** two electrons of opposite spins in orbital 1 and one in orbital 2: 1 + (2 * 3 + 5) + (4 + 2 * 10 - 9) *)
Example C87_energy_case : gq_eqb (occupation_energy 3 qhalf (gq 4 0) (fun p q => data c78_one [p; q]) (fun p q => data (j_mat c78_two) [p; q]) (fun p q => data (k_mat c78_two) [p; q])
  [false; false; true; true; true; false]) (gq 108 0) = true.
Proof. vm_compute. reflexivity. Qed.
Example C87_antisym_case : match get_antisym gq_zero (Some c78_one) (Some c78_two) with
  | Ok A => gq_eqb (data A [2; 4; 2; 4]) (gq 4 0) && gq_eqb (data A [2; 4; 4; 2]) (gq (-4) 0) && gq_eqb (data A [2; 5; 2; 5]) (gq 40 0) && gq_eqb (data A [2; 5; 5; 2]) (gq (-40) 0) | Err _ => false end = true.
Proof. vm_compute. reflexivity. Qed.
Example C87_data_case : match get_molecular_hamiltonian gq_zero qhalf [] (gq 4 0) c78_one c78_two None None with
  | Ok (h, p) => match get_molecular_data h p true (Some 1%Z) (Some 2%Z) true, get_molecular_data h p true (Some 1%Z) (Some 2%Z) false with
    | Ok m, Ok m' => Nat.eqb (m_n_orbitals m) 3 && Nat.eqb (m_n_orbitals m') 6 && gq_eqb (data (m_one_body_integrals m) [1; 2]) (gq 16 0) && gq_eqb (data (m_one_body_integrals m') [1; 3]) (gq 8 0) &&
        gq_eqb (data (m_two_body_integrals m) [1; 2; 2; 1]) (gq 20 0)
    | _, _ => false end
  | Err _ => false end = true.
Proof. vm_compute. reflexivity. Qed.
(** four electrons, two of them active in two orbitals: orbital 0 is filled, 1 and 2 are active *)
Example C87_load_case : match load_molecular_hamiltonian gq_zero qhalf [] (gq 4 0) c78_one c78_two 4%Z (Some 2%Z) (Some 2) with
  | Ok (h, p) => Nat.eqb (n_qubits p) 4 && gq_eqb (value h p [] []) (gq 16 0) && gq_eqb (value h p [true; false] [1; 3]) (gq 36 0) | Err _ => false end = true.
Proof. vm_compute. reflexivity. Qed.
Example C87_spins_case : get_n_alpha_electrons 3 2 = 2%Z /\ get_n_beta_electrons 3 2 = 1%Z /\ get_n_alpha_electrons 4 2 = 2%Z /\ get_n_beta_electrons 4 2 = 1%Z.
Proof. repeat split. Qed.

Print Assumptions C87_coulomb_exchange.
Print Assumptions C87_missing.
Print Assumptions C87_energy.
Print Assumptions C87_antisym.
Print Assumptions C87_data.
Print Assumptions C87_data_undescribed.
Print Assumptions C87_data_hamiltonian.
Print Assumptions C87_roundtrip_refuted.
Print Assumptions C87_load.
Print Assumptions C87_load_electrons.
Print Assumptions C87_load_defaults.
Print Assumptions C87_load_too_many_refuted.
Print Assumptions C87_spins.
