(** Model of incremental_calibration_examples/incremental_calibration_examples_2dlrf/src/2dlrf/utils.cpp (path generator and
    guess of the landmarks) and of the simulation loop that the three programs simulate-online.cpp (115-151),
    simulate-online-new.cpp (134-170) and simulate-offline.cpp (136-172) share, with exact arithmetic.  The noise that the
    programs draw is an arbitrary input of the model; sm::kinematics::angleMod is a parameter. *)
From Coq Require Import Reals List.
From Verif Require Import ErrorTermModel.
Import ListNotations.
Local Open Scope R_scope.

Definition vec3 (a b c : R) : rvec := fun i => match i with O => a | 1%nat => b | _ => c end.
Definition vec2 (a b : R) : rvec := fun i => match i with O => a | _ => b end.

(** genSineWavePath, 20-22: the loop over t.  None: the loop still runs after [fuel] rounds. *)
Fixpoint sine_costs (fuel : nat) (limit amplitude frequency T t : R) : option (list R) :=
  match fuel with
  | O => None
  | S fuel =>
    if Rlt_dec t limit then
      match sine_costs fuel limit amplitude frequency T (t + T) with
      | Some l => Some (amplitude * cos (2 * PI * frequency * t) :: l)
      | None => None
      end
    else Some []
  end.
(** 23-32: the loop over i; [theta]: the variable, [prev]: cost[i - 1] *)
Fixpoint sine_inputs (frequency T theta prev : R) (cost : list R) : list rvec :=
  match cost with
  | [] => []
  | c :: rest =>
    let theta_new := atan c in
    let v := 2 * PI * frequency * (sqrt (1 + c * c) + sqrt (1 + prev * prev)) / 2 in
    let om := (theta_new - theta) / T in
    vec3 v 0 om :: sine_inputs frequency T theta_new c rest
  end.
(** 15-33 *)
Definition genSineWavePath (fuel steps : nat) (amplitude frequency T : R) : option (list rvec) :=
  match sine_costs fuel (INR steps * T) amplitude frequency T 0 with
  | None => None
  | Some cost => Some (vec3 0 0 0 :: match cost with [] => [] | c0 :: rest => sine_inputs frequency T 0 c0 rest end)
  end.

(** One round of the simulation: simulate-online.cpp 117-124 (true path) and 127-133 (odometry) *)
Definition lrf_B (theta : R) : rmat :=
  let B := rident in
  let B := rset B 0 0 (cos theta) in
  let B := rset B 0 1 (- sin theta) in
  let B := rset B 1 0 (sin theta) in
  rset B 1 1 (cos theta).
Definition lrf_step (angleMod : R -> R) (T : R) (x u : rvec) : rvec :=
  let xk := fun i => x i + rmul 3 (fun a b => T * lrf_B (x 2%nat) a b) u i in
  vec3 (xk 0%nat) (xk 1%nat) (angleMod (xk 2%nat)).
(** 134-148: range and bearing of one landmark; [nr], [nb]: the noise *)
Definition lrf_range (x xl Theta : rvec) (nr : R) : R :=
  let ct := cos (x 2%nat) in let st := sin (x 2%nat) in
  let aa := xl 0%nat - x 0%nat - Theta 0%nat * ct + Theta 1%nat * st in
  let bb := xl 1%nat - x 1%nat - Theta 0%nat * st - Theta 1%nat * ct in
  sqrt (aa * aa + bb * bb) + nr.
Definition lrf_bearing (angleMod : R -> R) (x xl Theta : rvec) (nb : R) : R :=
  let ct := cos (x 2%nat) in let st := sin (x 2%nat) in
  let aa := xl 0%nat - x 0%nat - Theta 0%nat * ct + Theta 1%nat * st in
  let bb := xl 1%nat - x 1%nat - Theta 0%nat * st - Theta 1%nat * ct in
  angleMod (atan2 bb aa - x 2%nat - Theta 2%nat + nb).
Fixpoint mapi {A B} (f : nat -> A -> B) (k : nat) (l : list A) : list B :=
  match l with [] => [] | x :: l => f k x :: mapi f (S k) l end.
(** The vectors that the loop fills.  [us]: the control inputs u_true[1], u_true[2], ... that the loop reads; [wu i], [wr i j],
    [wb i j]: the noise drawn in round i (for landmark j). *)
Record lrf_data := LrfData { d_true : list rvec; d_odom : list rvec; d_u : list rvec; d_r : list (list R); d_b : list (list R) }.
Fixpoint lrf_loop (angleMod : R -> R) (T : R) (Theta : rvec) (xls : list rvec) (wu : nat -> rvec) (wr wb : nat -> nat -> R)
    (i : nat) (x o : rvec) (us : list rvec) : lrf_data :=
  match us with
  | [] => LrfData [] [] [] [] []
  | u :: us =>
    let x := lrf_step angleMod T x u in
    let un := fun k => u k + wu i k in
    let o := lrf_step angleMod T o un in
    let rk := mapi (fun j xl => lrf_range x xl Theta (wr i j)) 0 xls in
    let bk := mapi (fun j xl => lrf_bearing angleMod x xl Theta (wb i j)) 0 xls in
    let d := lrf_loop angleMod T Theta xls wu wr wb (S i) x o us in
    LrfData (x :: d_true d) (o :: d_odom d) (un :: d_u d) (rk :: d_r d) (bk :: d_b d)
  end.
(** With the initial entries (simulate-online.cpp 75-82 and 109-113) *)
Definition lrf_simulate (angleMod : R -> R) (T : R) (x0 Theta : rvec) (xls us : list rvec) (wu : nat -> rvec) (wr wb : nat -> nat -> R) : lrf_data :=
  let d := lrf_loop angleMod T Theta xls wu wr wb 1 x0 x0 us in
  LrfData (x0 :: d_true d) (x0 :: d_odom d) (vec3 0 0 0 :: d_u d)
          (repeat 0 (length xls) :: d_r d) (repeat 0 (length xls) :: d_b d).

(** initLandmarks, 35-60.  A landmark: its guess and l_found[j].  None: an access beyond the end of r, r[i], b or b[i]
    (undefined behaviour).  The innermost statement, 48-57: *)
Definition il_cell (x Theta : rvec) (ri bi : option (list R)) (j : nat) (l : rvec) (found : bool) : option (rvec * bool) :=
  if found then Some (l, true)
  else match ri with
       | None => None
       | Some ri =>
         match nth_error ri j with
         | None => None
         | Some rij =>
           if Rlt_dec 0 rij then
             match bi with
             | None => None
             | Some bi =>
               match nth_error bi j with
               | None => None
               | Some bij =>
                 Some (vec2 (x 0%nat + Theta 0%nat * cos (x 2%nat) - Theta 1%nat * sin (x 2%nat) + rij * cos (bij + Theta 2%nat + x 2%nat))
                            (x 1%nat + Theta 0%nat * sin (x 2%nat) + Theta 1%nat * cos (x 2%nat) + rij * sin (bij + Theta 2%nat + x 2%nat)), true)
               end
             end
           else Some (l, false)
         end
       end.
(** 47: the loop over the landmarks *)
Fixpoint il_row (x Theta : rvec) (ri bi : option (list R)) (j : nat) (s : list (rvec * bool)) : option (list (rvec * bool)) :=
  match s with
  | [] => Some []
  | (l, found) :: s =>
    match il_cell x Theta ri bi j l found, il_row x Theta ri bi (S j) s with
    | Some c, Some s => Some (c :: s)
    | _, _ => None
    end
  end.
(** 46: the loop over the poses *)
Fixpoint il_rows (Theta : rvec) (r b : list (list R)) (i : nat) (xs : list rvec) (s : list (rvec * bool)) : option (list (rvec * bool)) :=
  match xs with
  | [] => Some s
  | x :: xs =>
    match il_row x Theta (nth_error r i) (nth_error b i) 0 s with
    | Some s => il_rows Theta r b (S i) xs s
    | None => None
    end
  end.
(** 35-60; [old]: what x_l_hat contains before the call *)
Definition initLandmarks (old : list rvec) (x_odom : list rvec) (Theta_hat : rvec) (r b : list (list R)) : option (list rvec) :=
  match r with
  | [] => Some old
  | r0 :: _ =>
    match il_rows Theta_hat r b 0 x_odom (repeat (vec2 0 0, false) (length r0)) with
    | Some s => Some (map fst s)
    | None => None
    end
  end.
