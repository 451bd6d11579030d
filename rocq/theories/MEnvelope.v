(** Model of the failure envelopes of examples/criterion_check.py. *)
Require Import Verif.Py.

(** Python / numpy [x**y] for x >= 0 (with a positive exponent when x = 0; negative bases
    and zero to a non-positive power other than zero are not modelled). *)
(** E.g. examples/criterion_check.py:1040-1051. *)
Definition rpow (x y : R) : R :=
  if Req_EM_T x 0 then (if Req_EM_T y 0 then 1 else 0) else Rpower x y.

(** (p0, tau_T, p_T) of the three Mede samples, examples/criterion_check.py:1058-1060,
    1082-1084, 1106-1108. *)
Definition mede_RG1 : R * R * R := (7, 353 / 100, 149 / 100).
(** examples/criterion_check.py:1082-1084. *)
Definition mede_RG2 : R * R * R := (233 / 100, 122 / 100, 19 / 100).
(** examples/criterion_check.py:1106-1108. *)
Definition mede_FCDH : R * R * R := (145 / 100, 61 / 100, 17 / 100).

(** Critical stresses (sigma_c, tau_c), examples/criterion_check.py:1033-1043 (Adam) and
    1046-1054 (Schottner). *)
Definition adam_critical (sf om : R) : R * R :=
  let om := if Rltb 1 sf then 7 / 10 else om in
  let sf := if Rltb sf (55 / 100) then 55 / 100 else sf in
  (616 / 100 * rpow sf om, 509 / 100 * rpow sf om).
(** examples/criterion_check.py:1046-1054. *)
Definition schottner_critical (om rho : R) : R * R :=
  let sc := 2000 * 13 * rpow (rho / (9167 / 10)) om in
  (sc, 509 / 100 * (sc / (616 / 100))).
(** examples/criterion_check.py:1043, 1054. *)
Definition quadratic (c : R * R) (sigma tau : R) : R := (sigma / fst c) ^ 2 + (tau / snd c) ^ 2.

(** examples/criterion_check.py:1062-1079 (1086-1103, 1110-1127 alike); [sigma], [tau] are
    absolute values. *)
Definition mede_value (c : R * R * R) (sigma tau : R) : R :=
  let '(p0, tT, pT) := c in
  if Rltb pT sigma then tau ^ 2 + (tT / p0) ^ 2 * (sigma - pT) ^ 2
  else if (Rleb (pT - p0) sigma && Rleb sigma pT)%bool
  then - tau * (p0 / (tT * pT)) + sigma * (1 / pT) + p0 / pT
  else 0.

(** examples/criterion_check.py:964-1130 [stress_envelope] for one pair of stresses. *)
Definition stress_envelope1 (envelope : string) (sf om rho sigma tau : R) : res R :=
  let sigma := Rabs sigma in
  let tau := Rabs tau in
  if String.eqb envelope "adam_unpublished" then Ok (quadratic (adam_critical sf om) sigma tau)
  else if String.eqb envelope "schottner" then Ok (quadratic (schottner_critical om rho) sigma tau)
  else if String.eqb envelope "mede_s-RG1" then Ok (mede_value mede_RG1 sigma tau)
  else if String.eqb envelope "mede_s-RG2" then Ok (mede_value mede_RG2 sigma tau)
  else if String.eqb envelope "mede_s-FCDH" then Ok (mede_value mede_FCDH sigma tau)
  else Err ValueError.

(** The same for arrays. NaN stresses give NaN in the quadratic envelopes and keep the
    initial 0 in the Mede envelopes (all comparisons are false). *)
(** examples/criterion_check.py:964-1130 [stress_envelope]. *)
Definition stress_envelope (envelope : string) (sf om rho : R) (sigma tau : list (option R))
  : res (list (option R)) :=
  _ <- stress_envelope1 envelope sf om rho 0 0 ;;
  mapM (fun st : option R * option R =>
          match st with
          | (Some s, Some t) => v <- stress_envelope1 envelope sf om rho s t ;; Ok (Some v)
          | _ => Ok (if mem_str envelope ["adam_unpublished"; "schottner"]%string then None else Some 0)
          end) (combine sigma tau).

(** examples/criterion_check.py:2080-2154 [failure_envelope_mede] for one stress. *)
Definition failure_envelope_mede (sample : string) (sigma : R) : res R :=
  c <- (if String.eqb sample "s-RG1" then Ok (7, 353 / 100, 149 / 100)
        else if String.eqb sample "s-RG2" then Ok (233 / 100, 122 / 100, 19 / 100)
        else if String.eqb sample "s-FCDH" then Ok (145 / 100, 61 / 100, 17 / 100)
        else Err ValueError) ;;
  let '(p0, tT, pT) := c in
  Ok (if (Rleb (pT - p0) sigma && Rleb sigma pT)%bool then tT / p0 * sigma + (tT - tT * pT / p0)
      else if (Rltb pT sigma && Rleb sigma (pT + p0))%bool
      then sqrt (tT ^ 2 - tT ^ 2 / p0 ^ 2 * (sigma - pT) ^ 2)
      else 0).

(** Quarter ellipse of examples/criterion_check.py:2187-2191, 2234-2238. *)
Definition ellipse (c : R * R) (x : R) : R :=
  let '(sc, tc) := c in
  if (Rleb (- sc) x && Rleb x sc)%bool then sqrt (1 - x ^ 2 / sc ^ 2) * tc else 0.
(** examples/criterion_check.py:2157-2191 [failure_envelope_adam_unpublished]. *)
Definition failure_envelope_adam (sf om x : R) : R :=
  ellipse (616 / 100 * rpow sf om, 509 / 100 * rpow sf om) x.
(** examples/criterion_check.py:2194-2238 [failure_envelope_schottner]. *)
Definition failure_envelope_schottner (om rho x : R) : R :=
  let sc := 2000 * 13 * rpow (rho / (9167 / 10)) om in
  ellipse (sc, 509 / 100 * (sc / (616 / 100))) x.

(** examples/criterion_check.py:2241-2304 [failure_envelope_chandel] for one stress. *)
Definition failure_envelope_chandel (sample : string) (sigma : R) : res R :=
  if String.eqb sample "FCso" then
    let sC := 75 / 10 in let sT := 25 / 10 in let c := 73 / 10 in
    let tmax := c + sT * tan (deg2rad 22) in
    Ok (if (Rltb sT sigma && Rleb sigma sC)%bool then tmax * sqrt (1 - ((sigma - sT) / (sC - sT)) ^ 2)
        else if (Rleb sigma sT && Rleb 0 sigma)%bool then c + sigma * tan (deg2rad 22)
        else 0)
  else if String.eqb sample "FCsf" then
    Ok (if (Rleb sigma (605 / 100) && Rleb 0 sigma)%bool
        then 41 / 10 * sqrt (1 - (sigma / (605 / 100)) ^ 2) else 0)
  else Err ValueError.

(** examples/criterion_check.py:2307-2344 [fracture_toughness_envelope] for one value. *)
Definition fracture_toughness_envelope (G : R) : R :=
  if (Rleb 0 G && Rleb G (56 / 100))%bool
  then 79 / 100 * rpow (1 - rpow (G / (56 / 100)) 5) (1 / (22 / 10)) else 0.

(** examples/criterion_check.py:2449-2494 [fracture_toughness_criterion]. *)
Definition fracture_toughness_criterion (Gs Gt : R) : R :=
  rpow (Rabs Gs / (56 / 100)) (1 / (2 / 10)) + rpow (Rabs Gt / (79 / 100)) (1 / (45 / 100)).
