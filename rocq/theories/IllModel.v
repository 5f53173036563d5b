(** Non-uniform illumination: corgidrp/pump_trap_calibration.py illumination_correction 187-262.

    An image is a list of rows of equal length; a value is a real number or NaN ([None]).
    Infinities and rounding are not modelled; neither are the checks on the type of the
    elements and of ill_corr. *)
From Coq Require Import List Arith Bool Reals ZArith.
From Verif Require Import Base CombineModel FindModel.
Import ListNotations.
Local Open Scope R_scope.

(** np.median: NaN if there is one, or nothing *)
Definition median (l : list (option R)) : option R := if forallb (fun v => match v with Some _ => true | None => false end) l then nanmedian l else None.
Definition sub2 (a b : option R) : option R := match a, b with Some x, Some y => Some (x - y) | _, _ => None end.
Definition zipgrid {A B} (a : list (list A)) (b : list (list B)) : list (list (A * B)) := map (fun p => combine (fst p) (snd p)) (combine a b).
Definition subtract (a b : image) : image := map (map (fun p => sub2 (fst p) (snd p))) (zipgrid a b).

(** np.arange(0, stop, step), 230-235 *)
Definition arange (stop step : nat) : list nat := map (fun i => (i * step)%nat) (seq 0 ((stop + step - 1) / step)).
(** l[-1] = v *)
Definition set_last {A} (l : list A) (v : A) : list A := removelast l ++ [v].
Definition edges (n b : nat) : list nat := set_last (if Nat.eqb (n mod b) 0 then arange (n + 1) b else arange n b) n.
(** successive pairs of edges *)
Definition bins (n b : nat) : list (nat * nat) := combine (edges n b) (tl (edges n b)).
Definition inside (w : nat * nat) (i : nat) : bool := (fst w <=? i)%nat && (i <? snd w)%nat.
Definition cut {A} (w : nat * nat) (l : list A) : list A := firstn (snd w - fst w) (skipn (fst w) l).
Definition section (img : image) (rw cw : nat * nat) : list (option R) := List.concat (map (cut cw) (cut rw img)).
(** one turn of the double loop, 249-256 *)
Definition correct_bin (img corr : image) (w : (nat * nat) * (nat * nat)) : image :=
  let m := median (section img (fst w) (snd w)) in
  grid_map (fun i j p => if inside (fst w) i && inside (snd w) j then sub2 (fst p) m else snd p) (zipgrid img corr).

(** The result: the corrected image and what was subtracted.  The median of the whole image
    unless both a bin size is given and ill_corr is set. *)
Definition illumination_correction (img : image) (binsize : option Z) (ill_corr : bool) : result (image * image) :=
  match binsize with
  | Some z => if (z <=? 0)%Z then Raise TypeError else
    if ill_corr then
      match img with
      | [] => Raise IndexError                      (* img[0] *)
      | _ =>
        let b := Z.to_nat z in
        let zeros := map (map (fun _ => Some 0)) img in
        let corr := fold_left (correct_bin img) (list_prod (bins (List.length img) b) (bins (ncol img) b)) zeros in
        Ok (corr, subtract img corr)
      end
    else let corr := map (map (fun v => sub2 v (median (List.concat img)))) img in Ok (corr, subtract img corr)
  | None => let corr := map (map (fun v => sub2 v (median (List.concat img)))) img in Ok (corr, subtract img corr)
  end.
