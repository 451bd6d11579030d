(** Specification: when the system matrix has six different eigenvalues, and an exact
    eigensolver. The eigensolver stands for [np.linalg.eig] (weac/eigensystem.py:388) where a
    theorem needs one that is known to return true eigenpairs; it is no model of numpy's
    algorithm. *)
From Coq Require Import Lra.
Require Import Verif.Py Verif.MTools Verif.MEigen.
From Coquelicot Require Import Complex.
Open Scope R_scope.

(** Characteristic polynomial of a matrix shaped like the system matrix
    (weac/eigensystem.py:339-346), in the square m of the eigenvalue:
    m^3 + chi2 m^2 + chi1 m + chi0. *)
Definition chi2 (K : mat6) : R :=
  - z_w (row3 K) - z_psi (row5 K) + z_dw (row5 K) - z_u (row1 K).
Definition chi1 (K : mat6) : R :=
  z_w (row3 K) * z_psi (row5 K)
  + z_u (row1 K) * (z_w (row3 K) + z_psi (row5 K) - z_dw (row5 K))
  + z_u (row5 K) * (z_dw (row1 K) - z_psi (row1 K)).
Definition chi0 (K : mat6) : R :=
  - z_u (row1 K) * z_w (row3 K) * z_psi (row5 K)
  + z_u (row5 K) * z_psi (row1 K) * z_w (row3 K).

(** No real square is a double root. *)
Definition simple_spectrum (K : mat6) : Prop :=
  forall m, m ^ 3 + chi2 K * m ^ 2 + chi1 K * m + chi0 K = 0 ->
            3 * m ^ 2 + 2 * chi2 K * m + chi1 K <> 0.

(** Discriminant of the cubic. *)
Definition chi_disc (K : mat6) : R :=
  18 * chi2 K * chi1 K * chi0 K - 4 * chi2 K ^ 3 * chi0 K + chi2 K ^ 2 * chi1 K ^ 2
  - 4 * chi1 K ^ 3 - 27 * chi0 K ^ 2.

(** A real root of a monic cubic. *)
Lemma cubic_continuous a b c : continuity (fun m => m ^ 3 + a * m ^ 2 + b * m + c).
Proof. intros x. reg. Qed.

Lemma cubic_below a b c : let M := 1 + Rabs a + Rabs b + Rabs c in
  (- M) ^ 3 + a * (- M) ^ 2 + b * (- M) + c < 0.
Proof.
  cbv zeta. set (M := 1 + Rabs a + Rabs b + Rabs c).
  pose proof (Rle_abs a). pose proof (Rle_abs c). pose proof (Rle_abs (- b)).
  rewrite Rabs_Ropp in H1.
  pose proof (Rabs_pos a). pose proof (Rabs_pos b). pose proof (Rabs_pos c).
  assert (1 <= M) by (unfold M; lra).
  assert (a * M ^ 2 <= Rabs a * M ^ 2) by (apply Rmult_le_compat_r; nra).
  assert (0 <= M * (M - 1)) by (apply Rmult_le_pos; lra).
  assert (1 <= M ^ 2) by nra.
  assert (0 <= Rabs b * (M * (M - 1))) by (apply Rmult_le_pos; lra).
  assert (0 <= (Rabs b + b) * M) by (apply Rmult_le_pos; lra).
  assert (- b * M <= Rabs b * M ^ 2) by lra.
  assert (c <= Rabs c * M ^ 2) by (assert (0 <= Rabs c * (M ^ 2 - 1)) by (apply Rmult_le_pos; lra); lra).
  assert (M ^ 3 = M ^ 2 + Rabs a * M ^ 2 + Rabs b * M ^ 2 + Rabs c * M ^ 2)
    by (unfold M; ring).
  lra.
Qed.

Lemma cubic_above a b c : let M := 1 + Rabs a + Rabs b + Rabs c in
  0 < M ^ 3 + a * M ^ 2 + b * M + c.
Proof.
  cbv zeta. set (M := 1 + Rabs a + Rabs b + Rabs c).
  pose proof (Rle_abs (- a)). pose proof (Rle_abs (- c)). pose proof (Rle_abs (- b)).
  rewrite Rabs_Ropp in *.
  pose proof (Rabs_pos a). pose proof (Rabs_pos b). pose proof (Rabs_pos c).
  assert (1 <= M) by (unfold M; lra).
  assert (- a * M ^ 2 <= Rabs a * M ^ 2) by (apply Rmult_le_compat_r; nra).
  assert (0 <= M * (M - 1)) by (apply Rmult_le_pos; lra).
  assert (1 <= M ^ 2) by nra.
  assert (0 <= Rabs b * (M * (M - 1))) by (apply Rmult_le_pos; lra).
  assert (0 <= (Rabs b + b) * M) by (apply Rmult_le_pos; lra).
  assert (- b * M <= Rabs b * M ^ 2) by lra.
  assert (- c <= Rabs c * M ^ 2) by (assert (0 <= Rabs c * (M ^ 2 - 1)) by (apply Rmult_le_pos; lra); lra).
  assert (M ^ 3 = M ^ 2 + Rabs a * M ^ 2 + Rabs b * M ^ 2 + Rabs c * M ^ 2)
    by (unfold M; ring).
  lra.
Qed.

Lemma cubic_bracket a b c : let M := 1 + Rabs a + Rabs b + Rabs c in - M < M.
Proof.
  cbv zeta. pose proof (Rabs_pos a). pose proof (Rabs_pos b). pose proof (Rabs_pos c). lra.
Qed.

Definition cubic_root (a b c : R) : R :=
  proj1_sig (IVT _ _ _ (cubic_continuous a b c) (cubic_bracket a b c)
                 (cubic_below a b c) (cubic_above a b c)).

Lemma cubic_root_eq a b c : let r := cubic_root a b c in r ^ 3 + a * r ^ 2 + b * r + c = 0.
Proof.
  cbv zeta. unfold cubic_root.
  exact (proj2 (proj2_sig (IVT _ _ _ (cubic_continuous a b c) (cubic_bracket a b c)
                 (cubic_below a b c) (cubic_above a b c)))).
Qed.

(** Square roots of a real number, and of a conjugate pair a + i b, a - i b. *)
Definition roots_real (m : R) : list C :=
  if Rlt_dec 0 m then [(sqrt m, 0); (- sqrt m, 0)]
  else [(0, sqrt (- m)); (0, - sqrt (- m))].
Definition roots_pair (a b : R) : list C :=
  let rho := sqrt (a ^ 2 + b ^ 2) in
  let x := sqrt ((rho + a) / 2) in
  let y := sqrt ((rho - a) / 2) in
  [(x, y); (- x, - y); (x, - y); (- x, y)].

(** The eigenvalues. *)
Definition exact_eigenvalues (K : mat6) : list C :=
  let r := cubic_root (chi2 K) (chi1 K) (chi0 K) in
  let b := chi2 K + r in
  let c := chi1 K + r * b in
  let d := b ^ 2 - 4 * c in
  roots_real r ++
  if Rlt_dec 0 d then roots_real ((- b + sqrt d) / 2) ++ roots_real ((- b - sqrt d) / 2)
  else roots_pair (- b / 2) (sqrt (- d) / 2).

(** An eigenvector for the eigenvalue la: (u, y, psi) solves the three equations left when
    u' = la u, w' = y = la w, psi' = la psi are eliminated. *)
Definition Ceqb (a b : C) : bool := Reqb (fst a) (fst b) && Reqb (snd a) (snd b).
Definition exact_shape (K : mat6) (la : C) : C * C * C :=
  let m := Cmult la la in
  let p := Cminus m (RtoC (z_u (row1 K))) in
  let c := Cminus m (RtoC (z_w (row3 K))) in
  if negb (Ceqb p (RtoC 0)) then
    (Cminus (Cmult m (RtoC (z_dw (row1 K)))) (Cmult c (RtoC (z_psi (row1 K)))),
     Cmult m p, Copp (Cmult c p))
  else if negb (Reqb (z_u (row5 K)) 0) then
    (Cplus (Cmult c (Cminus m (RtoC (z_psi (row5 K))))) (Cmult m (RtoC (z_dw (row5 K)))),
     Copp (Cmult m (RtoC (z_u (row5 K)))), Cmult c (RtoC (z_u (row5 K))))
  else (RtoC 1, RtoC 0, RtoC 0).
Definition exact_vector (K : mat6) (la : C) : vec6 * vec6 :=
  let '(u, y, s) := exact_shape K la in
  let w := Cdiv y la in
  (mkV (fst u) (fst (Cmult la u)) (fst w) (fst y) (fst s) (fst (Cmult la s)),
   mkV (snd u) (snd (Cmult la u)) (snd w) (snd y) (snd s) (snd (Cmult la s))).

Definition exact_eig (K : mat6) : list eigpair :=
  map (fun la => (la, exact_vector K la)) (exact_eigenvalues K).
