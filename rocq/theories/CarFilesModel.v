(** Model of the data files that the real-world programs of the car example write while they read a log
    (E = incremental_calibration_examples/incremental_calibration_examples_car):
    - E src/realworld/calibrator.cpp 76-88 (the six files), 155-158 and 176-179 (poseData.txt, velData.txt), 196-197 (fwData.txt), 209-210
      (rwData.txt), 221 (stData.txt), 234-235 (dmiData.txt);
    - E src/realworld/analyzer.cpp writes the same files at the corresponding places.
    A line is the time stamp in the header of the message (the program prints it in seconds) followed by the numbers in their order; the
    text of the numbers is that of TextModel and left out.  Exact arithmetic, as in CarDriverModel.  The lines are those of a log that is
    read to its end: an exception out of the calibrator ends the program. *)
From stdpp Require Import prelude list.
From Coq Require Import Reals String.
From Verif Require Import Base GeodeticModel CalibratorModel CarDriverModel.
Local Open Scope R_scope.

Inductive car_file := RwData | FwData | StData | DmiData | PoseData | VelData.
Record line := Line { l_file : car_file; l_stamp : Z; l_numbers : list R }.
Definition numbers3 (p : v3) : list R := [vx p; vy p; vz p].

Section files.
  Context {C : Type} (c0 : C) (correct : C -> Z -> Z -> C * Z) (secToNsec : R -> Z).
  Context (parametersToRotationMatrix : v3 -> m3) (rotationMatrixToParameters : m3 -> v3).
  Context (cfg : car_config).
  Local Notation dstate := (@dstate C).
  Local Notation block := (dstate -> payload -> result (dstate * list call * bool)).

  (** What the ifs of the loop body write, given the state they start from; nothing where the block ends before.
      calibrator.cpp 119-124 *)
  Definition write_vnp (s : dstate) (p : payload) : list line := [].
  (** 125-179 *)
  Definition write_vns (s : dstate) (p : payload) : list line :=
    match lastVnp s, as_vns p with
    | Some vnp, Some vns =>
      let lat := deg2rad (latitude vns) in let long := deg2rad (longitude vns) in
      let ecef := wgs84ToEcef lat long (altitude vns) in
      let T := if firstVns s then ecef2enu (vx ecef) (vy ecef) (vz ecef) lat long else m_T_e s in
      let pose := make_pose parametersToRotationMatrix rotationMatrixToParameters T vns vnp in
      let vel := make_vel parametersToRotationMatrix vns vnp in
      [Line PoseData (vns_stamp vns) (numbers3 (m_r_mr pose) ++ numbers3 (m_R_r pose) ++ numbers3 (sigma2_m_r_mr pose) ++ numbers3 (sigma2_m_R_r pose));
       Line VelData (vns_stamp vns) (numbers3 (r_v_mr vel) ++ numbers3 (r_om_mr vel) ++ numbers3 (sigma2_r_v_mr vel) ++ numbers3 (sigma2_r_om_mr vel))]
    | _, _ => []
    end.
  (** 186-198 *)
  Definition write_fws (s : dstate) (p : payload) : list line :=
    match as_fws p with Some m => [Line FwData (wh_stamp m) [wh_left m; wh_right m]] | None => [] end.
  (** 199-211 *)
  Definition write_rws (s : dstate) (p : payload) : list line :=
    match as_rws p with Some m => [Line RwData (wh_stamp m) [wh_left m; wh_right m]] | None => [] end.
  (** 212-222 *)
  Definition write_st (s : dstate) (p : payload) : list line :=
    match as_st p with Some m => [Line StData (st_stamp m) [st_value m]] | None => [] end.
  (** 223-239 *)
  Definition write_dmi (s : dstate) (p : payload) : list line :=
    match as_dmi p with
    | Some m =>
      if Req_EM_T (lastDMITimestamp s) (- 1) then []
      else [Line DmiData (dmi_stamp m) [(signedDistanceTraveled m - lastDMIDistance s) / (dmi_time1 m - lastDMITimestamp s)]]
    | None => []
    end.

  (** The six ifs in their order; the state is that of CarDriverModel. *)
  Fixpoint write_blocks (bs : list (bool * block * (dstate -> payload -> list line))) (s : dstate) (p : payload) : result (dstate * list line) :=
    match bs with
    | [] => Ret (s, [])
    | (false, _, _) :: bs' => write_blocks bs' s p
    | (true, b, w) :: bs' =>
      rbind (b s p) (fun '(s1, _, cont) =>
        if cont then Ret (s1, w s p) else rbind (write_blocks bs' s1 p) (fun '(s2, l') => Ret (s2, w s p ++ l')))
    end.
  Definition write_body (s : dstate) (m : message) : result (dstate * list line) :=
    let is t := String.eqb (topic m) t in
    write_blocks
      [ (is (t_vnp cfg), block_vnp, write_vnp);
        (is (t_vns cfg), block_vns correct secToNsec parametersToRotationMatrix rotationMatrixToParameters, write_vns);
        (is (t_fws cfg) && useFw cfg, block_fws correct, write_fws); (is (t_rws cfg) && useRw cfg, block_rws correct, write_rws);
        (is (t_st cfg) && useSt cfg, block_st correct, write_st); (is (t_dmi cfg) && useDMI cfg, block_dmi correct secToNsec, write_dmi) ]
      s (content m).
  Fixpoint write_loop (s : dstate) (ms : list message) : result (dstate * list line) :=
    match ms with
    | [] => Ret (s, [])
    | m :: ms' => rbind (write_body s m) (fun '(s1, l) => rbind (write_loop s1 ms') (fun '(s2, l') => Ret (s2, l ++ l')))
    end.
  (** All lines, in the order in which they are written. *)
  Definition write_files (bag : list message) : result (list line) :=
    rbind (write_loop (driver_init c0) (List.filter (in_view cfg) bag)) (fun '(_, l) => Ret l).
End files.
