(** Property C20 (operators/ising.py). *)
From Coq Require Import List ZArith Reals Lia Lra Arith Bool.
From Verif Require Import Base Cplx LatticeSpec IsingModel IsingProofs.
Import ListNotations.
Local Open Scope R_scope.

(** C20: with a float field, the connections and matrix elements returned for a sample [s] sum, for every
    configuration [t], to the matrix element <s|H|t>; the sample is connection 0, all connections are in use and
    their number is the declared one. *)
Theorem C20_matrix_row : forall (J h : R) (pbc : bool) (shape : list nat) (sample : list (list Z)),
  good_shape shape pbc ->
  exists conn mel use, ising_find_conn J (PyFloat h) pbc shape sample = Ok (conn, mel, use) /\
    length conn = ising_max_conn shape /\
    (forall r, In r use -> forall u, In u r -> u = true) /\
    forall b s, nth_error sample b = Some s -> spins (sites_of shape) s ->
      nth 0 (column b [] conn) [] = s /\
      forall t, spins (sites_of shape) t ->
        row_sum (column b [] conn) (column b 0 mel) t = ising_element J h (shape_bonds shape pbc) s t.
Proof. exact ising_rows. Qed.
Print Assumptions C20_matrix_row.
Example C20_matrix_row_ex : good_shape [3%nat; 2%nat] true /\ spins (sites_of [3%nat; 2%nat]) [1; -1; 1; 1; -1; -1]%Z.
Proof.
  split.
  - right. exists 3%nat, 2%nat. repeat split; lia.
  - split; [reflexivity|]. unfold is_spin. repeat constructor; lia.
Qed.

(** C20: the specified matrix is symmetric, so connecting is a symmetric relation. *)
Theorem C20_symmetric : forall (J h : R) (bonds : list (nat * nat)) (s t : list Z), length s = length t ->
  ising_element J h bonds s t = ising_element J h bonds t s.
Proof. exact ising_symmetric. Qed.
Print Assumptions C20_symmetric.
Example C20_symmetric_ex : length [1; -1]%Z = length [-1; -1]%Z.
Proof. reflexivity. Qed.

(** C20: with an integer field the diagonal is truncated to an integer. *)
Theorem C20_integer_field_truncates : forall (J : R) (z : Z) (pbc : bool) (shape : list nat) (sample : list (list Z)),
  good_shape shape pbc ->
  exists conn mel use, ising_find_conn J (PyInt z) pbc shape sample = Ok (conn, mel, use) /\
    forall b s, nth_error sample b = Some s ->
      nth 0 (column b 0 mel) 0 =
      IZR (trunc (- J * Rsum (fun b => IZR (spin s (fst b) * spin s (snd b))) (shape_bonds shape pbc))).
Proof. exact ising_int_field. Qed.
Print Assumptions C20_integer_field_truncates.
Example C20_integer_field_truncates_ex : good_shape [4%nat] true.
Proof. left. exists 4%nat. split; [reflexivity|lia]. Qed.

(** C20 fails for J = 1/2 and the integer field 1: the diagonal is 0 instead of -1/2. *)
Theorem C20_integer_field_refuted :
  exists conn mel use, ising_find_conn (1 / 2) (PyInt 1) false [2%nat] [[1; 1]%Z] = Ok (conn, mel, use) /\
    nth 0 (column 0 0 mel) 0 = 0 /\
    ising_element (1 / 2) 1 (chain_bonds 2 false) [1; 1]%Z [1; 1]%Z = - (1 / 2).
Proof. exact ising_int_refuted. Qed.
Print Assumptions C20_integer_field_refuted.

(** C20: the periodic chain of one site gets the energy -J of a bond with itself, the periodic 1 x 1 grid does
    not. *)
Theorem C20_single_site_ring_refuted : forall (J h : R) (s : Z), s = 1%Z \/ s = (-1)%Z ->
  (exists conn mel use, ising_find_conn J (PyFloat h) true [1%nat] [[s]] = Ok (conn, mel, use) /\
     nth 0 (column 0 0 mel) 0 = - J) /\
  (exists conn mel use, ising_find_conn J (PyFloat h) true [1%nat; 1%nat] [[s]] = Ok (conn, mel, use) /\
     nth 0 (column 0 0 mel) 0 = 0) /\
  ising_element J h (chain_bonds 1 true) [s] [s] = 0.
Proof. exact ising_single_site_ring. Qed.
Print Assumptions C20_single_site_ring_refuted.
Example C20_single_site_ring_refuted_ex : (-1 = 1 \/ -1 = -1)%Z.
Proof. now right. Qed.

(** C20: three or more dimensions are rejected, and so is none at all. *)
Theorem C20_more_than_two_dimensions_raise : forall J h pbc a b c rest sample,
  ising_find_conn J h pbc (a :: b :: c :: rest) sample = Err AssertionError /\ ising_find_conn J h pbc [] sample = Err IndexError.
Proof. intros. split; [apply ising_more_dims|reflexivity]. Qed.
Print Assumptions C20_more_than_two_dimensions_raise.
Example C20_more_than_two_dimensions_raise_ex :
  ising_find_conn 1 (PyFloat 1) true [2; 2; 2]%nat [] = Err AssertionError.
Proof. reflexivity. Qed.
