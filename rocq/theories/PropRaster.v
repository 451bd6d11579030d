(** Property theorems C38-C40: rasterised solutions. *)
Require Import Verif.Py Verif.MTools Verif.MEigen Verif.MRaster Verif.SAdm Verif.SBeam Verif.SBvp Verif.SEig Verif.SRaster
  Verif.PBeam2 Verif.PBvp Verif.PWell2 Verif.PBvp6 Verif.PRaster2.

(** Every consistent segment list with a non-empty segment is accepted. *)
Theorem C38_accepted p e ld Cs li ki num : List.length Cs = List.length li -> List.length ki = List.length li ->
  (exists l, In l li /\ l <> 0) ->
  (forall b l C k, seg_at 0 (combine li (combine Cs ki)) b l (C, k) -> l <> 0 ->
     forall x, List.length (zh p e x (Rabs l) k) = List.length C) ->
  exists r, rasterize_solution p e ld Cs li ki num = Ok r.
Proof. exact (raster_accepts p e ld Cs li ki num). Qed.
Print Assumptions C38_accepted.
(** C38: the grid. *)
Theorem C38_grid p e ld Cs li ki num xq zq xb : (1 <= num)%nat ->
  rasterize_solution p e ld Cs li ki num = Ok (xq, zq, xb) ->
  strictly_increasing xq /\ hd 1 xq = 0 /\ last xq 0 = chain_length (combine li ki) /\
  (forall b l k, seg_at 0 (combine li ki) b l k -> In b xq /\ In (b + Rabs l) xq) /\
  (num + 1 <= List.length xq <= num + nonempty li + 1)%nat /\
  List.length zq = List.length xq /\ List.length xb = List.length xq.
Proof. exact (raster_grid p e ld Cs li ki num xq zq xb). Qed.
Print Assumptions C38_grid.
(** Empty segments have no influence. *)
Theorem C38_empty_segments p e ld C1 C2 c l1 l2 k1 k2 k num :
  List.length C1 = List.length l1 -> List.length k1 = List.length l1 ->
  rasterize_solution p e ld (C1 ++ c :: C2) (l1 ++ 0 :: l2) (k1 ++ k :: k2) num
  = rasterize_solution p e ld (C1 ++ C2) (l1 ++ l2) (k1 ++ k2) num.
Proof. exact (raster_empty p e ld C1 C2 c l1 l2 k1 k2 k num). Qed.
Print Assumptions C38_empty_segments.

(** C39: the foundation coordinate. *)
Theorem C39_foundation p e ld Cs li ki num xq zq xb : (1 <= num)%nat ->
  rasterize_solution p e ld Cs li ki num = Ok (xq, zq, xb) ->
  Forall2 (fun x y => on_foundation (combine li ki) x /\ y = Some x \/
                      ~ on_foundation (combine li ki) x /\ y = None) xq xb.
Proof. exact (raster_foundation p e ld Cs li ki num xq zq xb). Qed.
Print Assumptions C39_foundation.

(** C40: the columns. *)
Theorem C40_columns p e ld Cs li ki num xq zq xb : (1 <= num)%nat ->
  rasterize_solution p e ld Cs li ki num = Ok (xq, zq, xb) ->
  Forall2 (fun x z => exists b l C k, owns (combine li (combine Cs ki)) b l (C, k) x /\
    z = zsol p e ld (x - b) C (Rabs l) k) xq zq.
Proof. exact (raster_columns p e ld Cs li ki num xq zq xb). Qed.
Print Assumptions C40_columns.

(** A raster of three segments, one of them empty. *)
Definition ex_raster := rasterize_solution ex_par (calc_eigensystem ex_ews) (loads_of (ex_obj "skiers" None 30) 30)
  [[1; 0; 0; 2; 0; 0]; [0; 0; 0; 0; 0; 0]; [0; 3; 0; 0; 0; 1]] [4; 0; 2] [true; true; false] 10.
Example C38_C39_C40_example : exists xq zq xb, ex_raster = Ok (xq, zq, xb) /\
  (11 <= List.length xq <= 13)%nat /\ last xq 0 = 6 /\ In 4 xq /\ on_foundation (combine [4; 0; 2] [true; true; false]) 4.
Proof.
  destruct (C38_accepted ex_par (calc_eigensystem ex_ews) (loads_of (ex_obj "skiers" None 30) 30)
    [[1; 0; 0; 2; 0; 0]; [0; 0; 0; 0; 0; 0]; [0; 3; 0; 0; 0; 1]] [4; 0; 2] [true; true; false] 10 eq_refl eq_refl) as ([[xq zq] xb] & E).
  - exists 4. split; [left; reflexivity|lra].
  - intros b l C k H _ x. pose proof (six_zh _ (ready_six _ (ex_ready "skiers" None 30)) x (Rabs l) k) as S6.
    change (zh (o_par (ex_obj "skiers" None 30)) (o_eig (ex_obj "skiers" None 30)) x (Rabs l) k)
      with (zh ex_par (calc_eigensystem ex_ews) x (Rabs l) k) in S6.
    rewrite S6. simpl in H.
    inversion H as [|? ? ? ? ? ? ? H1]; subst; [reflexivity|]. inversion H1 as [|? ? ? ? ? ? ? H2]; subst; [reflexivity|].
    inversion H2 as [|? ? ? ? ? ? ? H3]; subst; [reflexivity|]. inversion H3.
  - exists xq, zq, xb. split; [exact E|].
    assert (H10 : (1 <= 10)%nat) by lia.
    destruct (C38_grid _ _ _ _ _ _ _ _ _ _ H10 E) as (_ & _ & La & Hin & Ln & _).
    split; [|split; [|split]].
    + replace (nonempty [4; 0; 2]) with 2%nat in Ln; [lia|]. unfold nonempty. simpl.
      destruct (Req_EM_T 4 0); [lra|]. destruct (Req_EM_T 0 0); [|lra]. destruct (Req_EM_T 2 0); [lra|]. reflexivity.
    + rewrite La. unfold chain_length. simpl. rewrite !Rabs_pos_eq by lra. lra.
    + destruct (Hin 0 4 true) as [_ I]; [simpl; constructor|]. rewrite Rabs_pos_eq, Rplus_0_l in I by lra. exact I.
    + exists 0, 4. split; [simpl; constructor|]. rewrite Rabs_pos_eq by lra. lra.
Qed.
