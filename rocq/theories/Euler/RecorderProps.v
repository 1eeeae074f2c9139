(** C65: boundary integrals, anchors and profiles. *)
From Coq Require Import Reals List Arith ZArith.
From Verif Require Import Base.Prelude Euler.GasModel Euler.DriverModel Solver.ScalarModel Euler.RecorderModel Euler.RecorderSpec Euler.RecorderProofs Euler.RecorderMore Euler.RecorderRadial.
Import ListNotations.
Local Open Scope R_scope.

(** Each face gives every bin the share of its area, and of its area times its value,
    that lies over it. *)
Theorem C65_faces_shared_out : forall fs l, (2 <= List.length l)%nat -> nondecreasing l -> (forall f, In f fs -> f_l f < f_r f) ->
  exists p, fill (zero_profile l) fs = Ok p /\ p_nodes p = l /\ well_formed p /\
    forall i, (i < List.length l - 1)%nat ->
      b_div (bin_of p i) = sum_of (fun f => share f (nth i l 0) (nth (i + 1) l 0)) fs /\
      forall c, b_v (bin_of p i) c = sum_of (fun f => share f (nth i l 0) (nth (i + 1) l 0) * f_v f c) fs.
Proof. exact fill_zero. Qed.
Print Assumptions C65_faces_shared_out.

(** Nothing is lost when the nodes cover the faces. *)
Theorem C65_nothing_lost : forall fs l p, (2 <= List.length l)%nat -> nondecreasing l ->
  (forall f, In f fs -> nth 0 l 0 <= f_l f /\ f_l f < f_r f /\ f_r f <= nth (List.length l - 1) l 0) ->
  fill (zero_profile l) fs = Ok p ->
  sum_of b_div (p_bins p) = sum_of f_area fs /\ forall c, sum_of (fun b => b_v b c) (p_bins p) = sum_of (fun f => f_area f * f_v f c) fs.
Proof. exact fill_total. Qed.
Print Assumptions C65_nothing_lost.

(** However the faces are spread over the ranks, every rank ends with the profile of
    all of them. *)
Theorem C65_ranks_agree : forall l css ps, (2 <= List.length l)%nat -> nondecreasing l -> (forall fs, In fs css -> forall f, In f fs -> f_l f < f_r f) ->
  mapM (fill (zero_profile l)) css = Ok ps ->
  forall p, In p (profile_reduce ps) -> fill (zero_profile l) (List.concat css) = Ok p.
Proof. exact reduce_fill. Qed.
Print Assumptions C65_ranks_agree.

(** What is read from a bin is the mean weighted by area, up to the guard in the
    divisor; so it lies between the least and the greatest value times that ratio. *)
Theorem C65_bin_is_average : forall fs l p i c lo hi, (2 <= List.length l)%nat -> nondecreasing l ->
  (forall f, In f fs -> f_l f < f_r f /\ 0 <= f_area f /\ lo <= f_v f c <= hi) -> fill (zero_profile l) fs = Ok p -> (i < List.length l - 1)%nat ->
  exists u, get p i = Ok u /\
    u c * (b_div (bin_of p i) + verySmallReal) = sum_of (fun f => share f (nth i l 0) (nth (i + 1) l 0) * f_v f c) fs /\
    b_div (bin_of p i) = sum_of (fun f => share f (nth i l 0) (nth (i + 1) l 0)) fs /\ 0 <= b_div (bin_of p i) /\
    lo * b_div (bin_of p i) <= u c * (b_div (bin_of p i) + verySmallReal) <= hi * b_div (bin_of p i).
Proof. exact get_average. Qed.
Print Assumptions C65_bin_is_average.

(** What is read at any place lies between the bins' values, and beyond the ends it is
    the value of the first or the last bin. *)
Theorem C65_reading_bounded : forall p x c lo hi, well_formed p -> (forall i, (i < p_size p)%nat -> 0 <= b_div (bin_of p i)) ->
  (forall i u, (i < p_size p)%nat -> get p i = Ok u -> lo <= u c <= hi) ->
  exists u, get_plain p x = Ok u /\ lo <= u c <= hi.
Proof. exact plain_hull. Qed.
Print Assumptions C65_reading_bounded.

Theorem C65_reading_at_ends : forall p x, well_formed p -> (forall i, (i < p_size p)%nat -> 0 <= b_div (bin_of p i)) ->
  (x <= node p 0 -> exists u w, get_plain p x = Ok u /\ get p 0 = Ok w /\ forall c, u c = w c) /\
  (node p (p_size p) + verySmallReal <= x -> exists u w, get_plain p x = Ok u /\ get p (p_size p - 1) = Ok w /\ forall c, u c = w c).
Proof. exact plain_ends. Qed.
Print Assumptions C65_reading_at_ends.

(** The pressure of the radial equilibrium solves the difference form of
    dp/dr = rho vt^2 / r from the middle of the first bin; it grows outwards, and for a
    solid-body swirl on uniform nodes it is the exact parabola. *)
Theorem C65_radial_equilibrium : forall E p, (E <> 0 /\ E <> 2)%nat -> well_formed p -> increasing (p_nodes p) ->
  (forall i, (1 <= i < p_size p)%nat -> 0 < node p i) -> (forall i, (i < p_size p)%nat -> avg p i 0 <> 0) ->
  (forall i, (i < p_size p)%nat -> 0 <= b_div (bin_of p i)) ->
  exists p', radial_eq E p = Ok p' /\ p_nodes p' = p_nodes p /\ well_formed p' /\
  forall i, (i < p_size p)%nat -> b_v (bin_of p' i) E = equilibrium p i /\ b_div (bin_of p' i) = 1 /\ forall c, c <> E -> b_v (bin_of p' i) c = avg p i c.
Proof. exact radial_ok. Qed.
Print Assumptions C65_radial_equilibrium.

Theorem C65_pressure_grows : forall p, increasing (p_nodes p) -> (forall i, (1 <= i < p_size p)%nat -> 0 < node p i) ->
  (forall i, (i < p_size p)%nat -> 0 < avg p i 0) ->
  forall i, (S i < p_size p)%nat -> equilibrium p i <= equilibrium p (S i).
Proof. exact equilibrium_grows. Qed.
Print Assumptions C65_pressure_grows.

Theorem C65_solid_body_exact : forall p a h rho w, 0 < h -> 0 <= a -> rho <> 0 -> (forall i, (i <= p_size p)%nat -> node p i = a + INR i * h) ->
  (forall i, (i < p_size p)%nat -> avg p i 0 = rho /\ avg p i 2 = rho * (w * mid p i)) ->
  forall i, (i < p_size p)%nat -> equilibrium p i = rho * w ^ 2 / 2 * (mid p i ^ 2 - mid p 0 ^ 2).
Proof. exact solid_body. Qed.
Print Assumptions C65_solid_body_exact.

(** Every rank gets the value of a nearest anchor of all ranks. *)
Theorem C65_nearest_anchor : forall old xs rs, List.length old = List.length xs ->
  (exists l x, In l xs /\ In x l /\ snd x < veryLarge) ->
  anchor_obtain (map (fun '(a, l) => anchors (anchor_reset a) l) (combine old xs)) = Ok rs ->
  exists l x, In l xs /\ In x l /\ (forall r, In r rs -> a_val r = Some (fst x)) /\ forall l' x', In l' xs -> In x' l' -> snd x <= snd x'.
Proof. exact anchor_ok. Qed.
Print Assumptions C65_nearest_anchor.

Theorem C65_anchor_defined : forall old xs, List.length old = List.length xs -> (exists l x, In l xs /\ In x l /\ snd x < veryLarge) ->
  exists rs, anchor_obtain (map (fun '(a, l) => anchors (anchor_reset a) l) (combine old xs)) = Ok rs.
Proof. exact anchor_defined. Qed.
Print Assumptions C65_anchor_defined.

(** A boundary integral is the sum over all faces of all ranks. *)
Theorem C65_integral_is_sum : forall xs r, In r (integral_reduce (map (integrals integral_reset) xs)) ->
  i_div r = INR (List.length xs) * verySmallReal + sum_of snd (List.concat xs) /\ forall c, i_v r c = sum_of (fun x => fst x c) (List.concat xs).
Proof. exact reduce_ok. Qed.
Print Assumptions C65_integral_is_sum.

(** The graded nodes run from end to end, increase and are symmetric; the width of the
    first interval is the wanted one up to the tolerance of the bisection. *)
Theorem C65_nodes_graded : forall x0 x1 n d0 l, tanh_distribution x0 x1 n d0 = Ok l ->
  x0 < x1 /\ (0 < n)%nat /\ List.length l = S n /\ nth 0 l 0 = x0 /\ nth n l 0 = x1 /\ increasing l /\ (forall i, (i <= n)%nat -> nth i l 0 + nth (n - i) l 0 = x0 + x1) /\
  (((x1 - x0) / INR n <= d0 /\ l = lin_spaced n x0 x1) \/
   (d0 < (x1 - x0) / INR n /\ exists h hi, h < hi /\ (tanh_eq x0 x1 d0 n (/ 10 ^ 10) < 0 - verySmallReal -> hi - h <= 20 / 2 ^ 20) /\ l = tanh_nodes x0 x1 n h /\
      d0 <= (1 - tanh (h - 2 * h / INR n) / (tanh h + verySmallReal)) / 2 * (x1 - x0) /\
      (1 - tanh (hi - 2 * hi / INR n) / (tanh hi + verySmallReal)) / 2 * (x1 - x0) <= d0)).
Proof. exact tanh_distribution_ok. Qed.
Print Assumptions C65_nodes_graded.

Theorem C65_first_interval : forall x0 x1 h n, x0 < x1 -> 0 < h -> (0 < n)%nat ->
  List.length (tanh_nodes x0 x1 n h) = S n /\ nth 0 (tanh_nodes x0 x1 n h) 0 = x0 /\ nth n (tanh_nodes x0 x1 n h) 0 = x1 /\ increasing (tanh_nodes x0 x1 n h) /\
  (forall i, (i <= n)%nat -> nth i (tanh_nodes x0 x1 n h) 0 + nth (n - i) (tanh_nodes x0 x1 n h) 0 = x0 + x1) /\
  nth 1 (tanh_nodes x0 x1 n h) 0 - x0 = (1 - tanh (h - 2 * h / INR n) / tanh h) / 2 * (x1 - x0).
Proof. exact tanh_ok. Qed.
Print Assumptions C65_first_interval.

(** False: a face whose corners have one radius puts a NaN into the profile; a bin that
    no face covers makes the equilibrium a NaN; without anchors the value read is
    unset; reducing twice multiplies by the number of ranks. *)
Theorem C65_thin_face_refuted : forall p v a x, well_formed p -> node p 0 <= x < node p (p_size p) -> add_interval p v a x x = UB.
Proof. exact thin_face. Qed.
Print Assumptions C65_thin_face_refuted.

Theorem C65_gap_refuted : forall E p i, (E <> 0 /\ E <> 2)%nat -> well_formed p -> (forall i, (i < p_size p)%nat -> 0 <= b_div (bin_of p i)) ->
  (i < p_size p)%nat -> (2 <= p_size p)%nat -> b_v (bin_of p i) 0%nat = 0 -> radial_eq E p = UB.
Proof. exact radial_gap. Qed.
Print Assumptions C65_gap_refuted.

Theorem C65_no_anchor_refuted : forall n, (0 < n)%nat -> anchor_obtain (repeat anchor_new n) = UB.
Proof. exact anchor_none. Qed.
Print Assumptions C65_no_anchor_refuted.

Theorem C65_reduce_idempotent_refuted : forall rs r c, In r (integral_reduce rs) ->
  forall r', In r' (integral_reduce (integral_reduce rs)) -> i_v r' c = INR (List.length rs) * i_v r c.
Proof. exact reduce_twice. Qed.
Print Assumptions C65_reduce_idempotent_refuted.

(** The hypotheses are met. *)
Example C65_fill_met : (2 <= List.length [0; 1; 2])%nat /\ nondecreasing [0; 1; 2] /\
  let f := {| f_v := fun _ => 5; f_area := 3; f_l := 1/2; f_r := 2 |} in
  nth 0 [0; 1; 2] 0 <= f_l f /\ f_l f < f_r f /\ f_r f <= nth (List.length [0; 1; 2] - 1) [0; 1; 2] 0 /\ share f 0 1 = 1 /\ share f 1 2 = 2.
Proof. exact met_fill. Qed.
Example C65_swirl_met : (4 <> 0 /\ 4 <> 2)%nat /\ well_formed swirl /\ increasing (p_nodes swirl) /\ (forall i, (1 <= i < p_size swirl)%nat -> 0 < node swirl i) /\
  (forall i, (i < p_size swirl)%nat -> 0 <= b_div (bin_of swirl i)) /\
  (forall i, (i <= p_size swirl)%nat -> node swirl i = 1 + INR i * 1) /\
  (forall i, (i < p_size swirl)%nat -> avg swirl i 0 = 2 /\ avg swirl i 2 = 2 * (1 * mid swirl i)).
Proof. exact met_swirl. Qed.
Example C65_anchor_met : let xs := [[(fun _ : nat => 1, 3)]; [(fun _ : nat => 2, 2); (fun _ => 4, 5)]] in
  List.length [anchor_new; anchor_new] = List.length xs /\ exists l x, In l xs /\ In x l /\ snd x < veryLarge.
Proof. exact met_anchor. Qed.
Example C65_thin_face_met : exists v a x, well_formed swirl /\ node swirl 0 <= x < node swirl (p_size swirl) /\ 0 < a /\ add_interval swirl v a x x = UB.
Proof. exact thin_face_met. Qed.
