(** C68: the location of the star between satellite spots. *)
From Coq Require Import List Arith Bool Reals ZArith Lra.
From Verif Require Import Base SpotModel SpotSpec SpotProofs SpotFitProofs SpotSearchProofs SpotTopProofs SpotMoveProofs SpotNumpyProofs SpotFoundProofs SpotCaseProofs.
Import ListNotations.
Local Open Scope R_scope.

(** Every pixel of the mask of a spot is the part of it that the disc covers. *)
Theorem C68_disc : forall nx ny r xs ys n, makes nx n -> exists m, circle nx ny r (Some xs) (Some ys) n = Ok m /\
  forall i j, (i < ny)%nat -> (j < nx)%nat -> m i j = coverage n r (INR j - INR (nx / 2) - xs) (INR i - INR (ny / 2) - ys).
Proof. exact (@circle_ok). Qed.
Print Assumptions C68_disc.
(** When no mask can be made. *)
Theorem C68_disc_refused : forall nx ny r xs ys n e, circle nx ny r xs ys n = Raise e <-> ((nx < 2)%nat /\ e = IndexError) \/ ((2 <= nx)%nat /\ n = 0%nat /\ e = PyException).
Proof. exact (@circle_refused). Qed.
Print Assumptions C68_disc_refused.
(** Parts are between none and all; *)
Theorem C68_disc_bounds : forall n r x y, 0 <= coverage n r x y <= 1.
Proof. exact (@coverage_bounds). Qed.
Print Assumptions C68_disc_bounds.
(** they grow with the radius; *)
Theorem C68_disc_wider : forall n r r' x y, r <= r' -> coverage n r x y <= coverage n r' x y.
Proof. exact (@coverage_wider). Qed.
Print Assumptions C68_disc_wider.
(** pixels well inside are covered, *)
Theorem C68_disc_inside : forall n r x y, (1 <= n)%nat -> sqrt (x * x + y * y) <= r - sqrt 2 -> coverage n r x y = 1.
Proof. exact (@inside_all). Qed.
Print Assumptions C68_disc_inside.
(** pixels well outside are not. *)
Theorem C68_disc_outside : forall n r x y, r + sqrt 2 <= sqrt (x * x + y * y) -> coverage n r x y = 0.
Proof. exact (@outside_none). Qed.
Print Assumptions C68_disc_outside.
(** The mask of all spots adds up the discs at both sides of the star at every angle. *)
Theorem C68_mask : forall ny nx rots sep x y r n, makes nx n -> forall acc, exists m, roi_mask ny nx rots (Some sep) (Some x) (Some y) r n acc = Ok m /\
  forall i j, (i < ny)%nat -> (j < nx)%nat -> m i j = acc i j + total (map (fun p => coverage n r (INR j - INR (nx / 2) - fst p) (INR i - INR (ny / 2) - snd p)) (spots_at rots sep x y)).
Proof. exact (@roi_ok). Qed.
Print Assumptions C68_mask.
(** The light collected under the mask. *)
Theorem C68_light : forall img v t sep x y, holds img v -> makes (nx img) (t_sub t) ->
  masked_flux img (t_rots t) (Some sep) (Some x) (Some y) (t_r t) (t_sub t) = Ok (Some (collected img v t sep x y)).
Proof. exact (@light_ok). Qed.
Print Assumptions C68_light.
(** The optimum in one dimension: the vertex of the parabola of least squares, refused if that is flat. *)
Theorem C68_parabola : forall polyfit : list num -> list num -> result (num * num * num), least_parabola polyfit -> forall xs ys m, length xs = length ys -> greatest ys m -> m <> 0 ->
    exists a b c, best1 (combine xs ys) (a, b, c) /\
      (level1 m a -> find_optimum_1d polyfit (map Some xs) (map Some ys) = Raise ValueError) /\
      (~ level1 m a -> exists x, find_optimum_1d polyfit (map Some xs) (map Some ys) = Ok (Some x) /\ a <> 0 /\ 2 * a * x + b = 0).
Proof. exact (@opt1). Qed.
Print Assumptions C68_parabola.
(** Values of a parabola give its vertex. *)
Theorem C68_parabola_exact : forall polyfit : list num -> list num -> result (num * num * num), least_parabola polyfit -> forall xs a b c m, three xs -> greatest (map (parabola (a, b, c)) xs) m -> m <> 0 -> ~ level1 m a ->
    find_optimum_1d polyfit (map Some xs) (map Some (map (parabola (a, b, c)) xs)) = Ok (Some (- b / (2 * a))).
Proof. exact (@opt1_exact). Qed.
Print Assumptions C68_parabola_exact.
(** NaN values, or none above zero, give no number. *)
Theorem C68_parabola_nan : forall polyfit : list num -> list num -> result (num * num * num), polyfit_spoilt polyfit -> forall (xs ys : list num), (In None ys \/ exists vs, ys = map Some vs /\ greatest vs 0) ->
    forall r, find_optimum_1d polyfit xs ys = Ok r -> r = None.
Proof. exact (@opt1_spoilt). Qed.
Print Assumptions C68_parabola_nan.
(** Unequal lengths are refused. *)
Theorem C68_parabola_shape : forall polyfit : list num -> list num -> result (num * num * num), forall xs ys, length xs <> length ys \/ ys = [] -> find_optimum_1d polyfit xs ys = Raise ValueError.
Proof. exact (@opt1_shape). Qed.
Print Assumptions C68_parabola_shape.
(** The optimum in two dimensions: the flat point of the paraboloid of least squares over the cells of the mask. *)
Theorem C68_paraboloid : forall lstsq : list (list num) -> list num -> result (list num), least_squares lstsq -> forall xs ys a mask m, table xs ys a -> table xs ys mask -> zero_one mask -> greatest (List.concat a) m -> m <> 0 ->
    exists q, best2 (cells xs ys a mask) q /\
      (level2 m q -> find_optimum_2d lstsq (map Some xs) (map Some ys) (map (map Some) a) mask = Raise ValueError) /\
      (~ level2 m q -> exists x y, find_optimum_2d lstsq (map Some xs) (map Some ys) (map (map Some) a) mask = Ok (Some x, Some y) /\
         qb q * qb q - 4 * qa q * qc q <> 0 /\ qc q <> 0 /\ stationary q x y).
Proof. exact (@opt2). Qed.
Print Assumptions C68_paraboloid.
(** Values of a paraboloid give its flat point. *)
Theorem C68_paraboloid_exact : forall lstsq : list (list num) -> list num -> result (list num), least_squares lstsq -> forall xs ys q m, three xs -> three ys -> greatest (List.concat (map (fun y => map (fun x => paraboloid q x y) xs) ys)) m -> m <> 0 -> ~ level2 m q ->
    exists x y, find_optimum_2d lstsq (map Some xs) (map Some ys) (map (fun y => map (fun x => Some (paraboloid q x y)) xs) ys) (map (fun _ => map (fun _ => 1%Z) xs) ys) = Ok (Some x, Some y) /\
      stationary q x y /\ forall x' y', stationary q x' y' -> x' = x /\ y' = y.
Proof. exact (@opt2_exact). Qed.
Print Assumptions C68_paraboloid_exact.
(** NaN values, or none above zero, give no number. *)
Theorem C68_paraboloid_nan : forall lstsq : list (list num) -> list num -> result (list num), lstsq_spoilt lstsq -> forall (xs ys : list num) (a : list (list num)), (In None (List.concat a) \/ exists vs, List.concat a = map Some vs /\ greatest vs 0) ->
    forall r, find_optimum_2d lstsq xs ys a (map (map (fun _ => 1%Z)) a) = Ok r -> r = (None, None).
Proof. exact (@opt2_spoilt). Qed.
Print Assumptions C68_paraboloid_nan.
(** Shapes that do not fit are refused. *)
Theorem C68_paraboloid_shape : forall lstsq : list (list num) -> list num -> result (list num), forall xs ys a mask, shape a <> shape mask \/ shape a <> (length ys, length xs) \/ List.concat a = [] -> find_optimum_2d lstsq xs ys a mask = Raise ValueError.
Proof. exact (@opt2_shape). Qed.
Print Assumptions C68_paraboloid_shape.
(** Masks whose sum is not the number of their cells are refused. *)
Theorem C68_paraboloid_mask : forall lstsq xs ys a mask, shape a = shape mask -> fold_right Z.add 0%Z (List.concat mask) <> (-1)%Z ->
  List.length (List.concat mask) = (List.length xs * List.length ys)%nat ->
  fold_right Z.add 0%Z (List.concat mask) <> Z.of_nat (List.length (filter (fun k => negb (Z.eqb k 0)) (List.concat mask))) ->
  find_optimum_2d lstsq xs ys a mask = Raise ValueError.
Proof. exact (@mask_refused). Qed.
Print Assumptions C68_paraboloid_mask.
(** The parabola of least squares is one. *)
Theorem C68_unique1 : forall pts p p', three (map fst pts) -> best1 pts p -> best1 pts p' -> p = p'.
Proof. exact (@unique1). Qed.
Print Assumptions C68_unique1.
(** The paraboloid of least squares is one. *)
Theorem C68_unique2 : forall xs ys pts q q', (forall x y, In x xs -> In y ys -> In (x, y) (map fst pts)) -> three xs -> three ys -> best2 pts q -> best2 pts q' -> q = q'.
Proof. exact (@unique2). Qed.
Print Assumptions C68_unique2.
(** What is returned: the star by the iterations of the search, the spots about it. *)
Theorem C68_whole : forall polyfit : list num -> list num -> result (num * num * num), forall lstsq : list (list num) -> list num -> result (list num), least_squares lstsq -> least_parabola polyfit -> lstsq_spoilt lstsq -> polyfit_spoilt polyfit ->
    forall ref sat g th off sp v X Y l, holds (difference sat ref) v -> makes (nx sat) (t_sub off) -> makes (nx sat) (t_sub sp) ->
    star_center polyfit lstsq ref sat g th off sp = Ok ((Some X, Some Y), l) ->
    ny ref = ny sat /\ nx ref = nx sat /\
    chain (closer (difference sat ref) v off (fst g - mid_x sat) (snd g - mid_y sat)) (t_iter off) (0, 0) (X - fst g, Y - snd g) /\
    ((exists s, separated (difference sat ref) v sp (X - mid_x sat) (Y - mid_y sat) s /\ l = somes (spots_at (map (fun d => d + th) (t_rots sp)) s (X - mid_x sat) (Y - mid_y sat))) \/
     Forall (fun p => p = (None, None)) l).
Proof. exact (@whole). Qed.
Print Assumptions C68_whole.
(** Where the fits are sharp enough it is returned. *)
Theorem C68_found : forall polyfit : list num -> list num -> result (num * num * num), forall lstsq : list (list num) -> list num -> result (list num), least_squares lstsq -> least_parabola polyfit -> forall ref sat g th off sp v X Y s, ny ref = ny sat -> nx ref = nx sat -> holds (difference sat ref) v -> makes (nx sat) (t_sub off) -> makes (nx sat) (t_sub sp) ->
    (3 <= t_steps off)%nat -> t_step off <> 0 -> (3 <= t_steps sp)%nat -> t_step sp <> 0 ->
    chain (sharp (difference sat ref) v off (fst g - mid_x sat) (snd g - mid_y sat)) (t_iter off) (0, 0) (X - fst g, Y - snd g) ->
    sharply (difference sat ref) v sp (X - mid_x sat) (Y - mid_y sat) s ->
    star_center polyfit lstsq ref sat g th off sp = Ok ((Some X, Some Y), somes (spots_at (map (fun d => d + th) (t_rots sp)) s (X - mid_x sat) (Y - mid_y sat))).
Proof. exact (@found). Qed.
Print Assumptions C68_found.
(** An iteration has one outcome. *)
Theorem C68_star_unique : forall img v t xg yg e e1 e2, (3 <= t_steps t)%nat -> t_step t <> 0 -> closer img v t xg yg e e1 -> closer img v t xg yg e e2 -> e1 = e2.
Proof. exact (@closer_unique). Qed.
Print Assumptions C68_star_unique.
(** The separation is one. *)
Theorem C68_separation_unique : forall img v t x y s1 s2, (3 <= t_steps t)%nat -> t_step t <> 0 -> separated img v t x y s1 -> separated img v t x y s2 -> s1 = s2.
Proof. exact (@separated_unique). Qed.
Print Assumptions C68_separation_unique.
(** The position angle of the spots does not touch the star. *)
Theorem C68_angle : forall polyfit : list num -> list num -> result (num * num * num), forall lstsq : list (list num) -> list num -> result (list num), forall ref sat g th th' off sp, match star_center polyfit lstsq ref sat g th off sp, star_center polyfit lstsq ref sat g th' off sp with Ok r, Ok r' => fst r = fst r' | Raise e, Raise e' => e = e' | _, _ => False end.
Proof. exact (@any_angle). Qed.
Print Assumptions C68_angle.
(** Only the difference of the images counts, up to a positive factor. *)
Theorem C68_same_light : forall polyfit : list num -> list num -> result (num * num * num), forall lstsq : list (list num) -> list num -> result (list num), forall k ref sat ref' sat' g th off sp, 0 < k -> ny ref' = ny ref -> nx ref' = nx ref -> ny sat' = ny sat -> nx sat' = nx sat ->
    (forall i j, (i < ny sat)%nat -> (j < nx sat)%nat -> nsub (px sat' i j) (px ref' i j) = option_map (Rmult k) (nsub (px sat i j) (px ref i j))) ->
    star_center polyfit lstsq ref' sat' g th off sp = star_center polyfit lstsq ref sat g th off sp.
Proof. exact (@same_light). Qed.
Print Assumptions C68_same_light.
(** The star and the spots follow the image. *)
Theorem C68_follows : forall polyfit lstsq ref sat ref' sat' v v' dx dy g th off sp, ny ref = ny sat -> nx ref = nx sat -> ny ref' = ny sat' -> nx ref' = nx sat' ->
  holds (difference sat ref) v -> holds (difference sat' ref') v' -> moved (difference sat ref) (difference sat' ref') v v' dx dy ->
  makes (nx sat) (t_sub off) -> makes (nx sat) (t_sub sp) ->
  star_center polyfit lstsq ref' sat' (fst g + IZR dx, snd g + IZR dy) th off sp =
  match star_center polyfit lstsq ref sat g th off sp with Ok (star, l) => Ok (move dx dy star, map (move dx dy) l) | Raise e => Raise e end.
Proof. exact (@follows). Qed.
Print Assumptions C68_follows.
(** A NaN pixel or equal images give NaN for the star and all spots. *)
Theorem C68_nothing : forall polyfit : list num -> list num -> result (num * num * num), forall lstsq : list (list num) -> list num -> result (list num), lstsq_spoilt lstsq -> forall ref sat g th off sp r, makes (nx sat) (t_sub off) -> t_iter off <> 0%nat ->
    (holed (difference sat ref) \/ flat (difference sat ref)) -> star_center polyfit lstsq ref sat g th off sp = Ok r -> fst r = (None, None) /\ Forall (fun p => p = (None, None)) (snd r).
Proof. exact (@nothing_found). Qed.
Print Assumptions C68_nothing.
(** Images of different shapes are refused. *)
Theorem C68_shapes : forall polyfit : list num -> list num -> result (num * num * num), forall lstsq : list (list num) -> list num -> result (list num), forall ref sat g th off sp, (ny sat <> ny ref \/ nx sat <> nx ref) -> star_center polyfit lstsq ref sat g th off sp = Raise TypeError.
Proof. exact (@shapes). Qed.
Print Assumptions C68_shapes.
(** Images of one column, and no subpixels, are refused. *)
Theorem C68_narrow : forall polyfit lstsq ref sat g th off sp, ny ref = ny sat -> nx ref = nx sat -> t_rots off <> [] -> t_steps off <> 0%nat -> t_iter off <> 0%nat -> ~ makes (nx sat) (t_sub off) ->
  star_center polyfit lstsq ref sat g th off sp = Raise (if (nx sat <? 2)%nat then IndexError else PyException).
Proof. exact (@narrow). Qed.
Print Assumptions C68_narrow.
(** A search without points is refused. *)
Theorem C68_no_steps : forall polyfit lstsq ref sat g th off sp, ny ref = ny sat -> nx ref = nx sat -> t_steps off = 0%nat -> t_iter off <> 0%nat ->
  star_center polyfit lstsq ref sat g th off sp = Raise ValueError.
Proof. exact (@no_steps). Qed.
Print Assumptions C68_no_steps.
(** Without iterations the guess is the star. *)
Theorem C68_no_turn : forall polyfit lstsq ref sat g th off sp, ny ref = ny sat -> nx ref = nx sat -> t_iter off = 0%nat -> t_iter sp = 0%nat ->
  star_center polyfit lstsq ref sat g th off sp = Ok ((Some (fst g), Some (snd g)), somes (spots_at (map (fun d => d + th) (t_rots sp)) (t_sep sp) (fst g - mid_x sat) (snd g - mid_y sat))).
Proof. exact (@no_turn). Qed.
Print Assumptions C68_no_turn.
(** Without a guess the search begins in the middle of the image. *)
Theorem C68_guess : forall sat, guess_or_centre None sat = (mid_x sat, mid_y sat) /\ forall g, guess_or_centre (Some g) sat = g.
Proof. exact (@guess). Qed.
Print Assumptions C68_guess.
(** The joint search: within its tolerances, no less light than at the guess, and the mask at its end. *)
Theorem C68_joint : forall (M : Type) (minimize : (list num -> result num) -> list R -> list (R * R) -> M -> result (option (list R))), no_worse minimize -> forall img v xg yg t ot st me a b c m, holds img v -> makes (nx img) (t_sub t) ->
    joint minimize img xg yg t (Some ot) (Some st) (Some me) = Ok ((a, b, c), m) ->
    Rabs (a - xg) <= ot /\ Rabs (b - yg) <= ot /\ Rabs (c - t_sep t) <= st /\ collected img v t (t_sep t) xg yg <= collected img v t c a b /\
    forall i j, (i < ny img)%nat -> (j < nx img)%nat -> m i j = total (map (fun p => coverage (t_sub t) (t_r t) (INR j - mid_x img - fst p) (INR i - mid_y img - snd p)) (spots_at (t_rots t) c a b)).
Proof. exact (@joint_ok). Qed.
Print Assumptions C68_joint.
(** Without the tolerances and the method it is refused. *)
Theorem C68_joint_missing : forall (M : Type) (minimize : (list num -> result num) -> list R -> list (R * R) -> M -> result (option (list R))), forall img xg yg t ot st me, ot = None \/ st = None \/ me = None -> joint minimize img xg yg t ot st me = Raise KeyError.
Proof. exact (@joint_missing). Qed.
Print Assumptions C68_joint_missing.
(** When the minimiser fails it is refused. *)
Theorem C68_joint_fails : forall (M : Type) (minimize : (list num -> result num) -> list R -> list (R * R) -> M -> result (option (list R))), forall img xg yg t ot st me, (forall f x0 bounds m, minimize f x0 bounds m = Ok None) -> joint minimize img xg yg t (Some ot) (Some st) (Some me) = Raise ValueError.
Proof. exact (@joint_fails). Qed.
Print Assumptions C68_joint_fails.
(** Its cost is the light, negative. *)
Theorem C68_cost : forall img v t x y s, holds img v -> makes (nx img) (t_sub t) -> cost_func_spots [Some x; Some y; Some s] (mkfixed img (t_rots t) (t_r t) (t_sub t)) = Ok (Some (- collected img v t s x y)).
Proof. exact (@cost_ok). Qed.
Print Assumptions C68_cost.
(** What is asked of numpy can be had. *)
Theorem C68_numpy : exists lstsq polyfit, least_squares lstsq /\ lstsq_spoilt lstsq /\ least_parabola polyfit /\ polyfit_spoilt polyfit.
Proof. exact (@numpy_exists). Qed.
Print Assumptions C68_numpy.
(** The star found need not be bright: in an image of opposite sign, where the spots are holes, it is found at the same place. *)
Theorem C68_negative_refuted : forall polyfit lstsq, least_squares lstsq -> least_parabola polyfit -> lstsq_spoilt lstsq -> polyfit_spoilt polyfit ->
  forall ref sat ref' sat' g th off sp v X Y X' Y' l l', holds (difference sat ref) v -> holds (difference sat' ref') (fun i j => - v i j) -> ny sat' = ny sat -> nx sat' = nx sat ->
  makes (nx sat) (t_sub off) -> makes (nx sat) (t_sub sp) -> (3 <= t_steps off)%nat -> t_step off <> 0 ->
  star_center polyfit lstsq ref sat g th off sp = Ok ((Some X, Some Y), l) -> star_center polyfit lstsq ref' sat' g th off sp = Ok ((Some X', Some Y'), l') -> X' = X /\ Y' = Y.
Proof. exact (@negative). Qed.
Print Assumptions C68_negative_refuted.
(** The mask is said to hold values between 0 and 1; where spots overlap it holds more. *)
Theorem C68_mask_refuted : exists rots r n m, roi_mask 3 3 rots (Some 0) (Some 0) (Some 0) r n (fun _ _ => 0) = Ok m /\ 1 < m 1%nat 1%nat.
Proof. exact (@overlap). Qed.
Print Assumptions C68_mask_refuted.
(** The point reported as optimum can be a saddle, with greater and smaller values around it. *)
Theorem C68_optimum_refuted : forall lstsq, least_squares lstsq -> exists xs ys q x y, three xs /\ three ys /\
  find_optimum_2d lstsq (map Some xs) (map Some ys) (map (fun y => map (fun x => Some (paraboloid q x y)) xs) ys) (map (fun _ => map (fun _ => 1%Z) xs) ys) = Ok (Some x, Some y) /\
  (exists x' y', paraboloid q x y < paraboloid q x' y') /\ exists x' y', paraboloid q x' y' < paraboloid q x y.
Proof. exact (@saddle). Qed.
Print Assumptions C68_optimum_refuted.
(** The spots are said to be located in the image; they are given about its middle and lie around the star only after adding it. *)
Theorem C68_spots_refuted : forall polyfit lstsq, exists ref sat g th off sp X Y, exists p1 p2 : R * R, star_center polyfit lstsq ref sat g th off sp = Ok ((Some X, Some Y), somes [p1; p2]) /\ (fst p1 + fst p2) / 2 <> X.
Proof. exact (@about_middle). Qed.
Print Assumptions C68_spots_refuted.

(** Two spots in an image of five by five pixels: star in the middle, spots 5/4 pixels from it. *)
Example C68_found_example : exists polyfit lstsq, least_squares lstsq /\ least_parabola polyfit /\ lstsq_spoilt lstsq /\ polyfit_spoilt polyfit /\
  star_center polyfit lstsq dim lit (2, 2) 0 for_star for_star = Ok ((Some 2, Some 2), somes (spots_at [0 + 0] (5 / 4) 0 0)).
Proof. destruct numpy_exists as (l & p & A & B & C & D). exists p, l. repeat (split; [assumption|]). apply case_found; assumption. Qed.
(** A disc on one pixel. *)
Example C68_disc_example : coverage 1 (/ 4) 0 0 = 1 /\ coverage 1 (/ 4) 1 0 = 0.
Proof. split; [apply (one_pixel 0 0)|apply (one_pixel 1 0)]. Qed.
(** A minimiser that gives back its starting point if the bounds hold it. *)
Example C68_joint_example : no_worse stay /\ exists m, joint stay lit 0 0 for_star (Some 1) (Some 1) (Some tt) = Ok ((0, 0, 1), m).
Proof. split; [apply stay_no_worse|apply stay_joint]. Qed.
