(** Combinations and star matching: corgidrp/astrom.py compute_combinations
    182-208, match_sources 414-572.

    compute_combinations is modelled for one-dimensional arguments (a range, or a
    table, the two uses in the code), of length [n], where the pool is 0 .. n-1, and
    for r >= 0 (a negative r acts like 0).  The generator's endless loop runs on
    fuel; None means the fuel was used up.  Its tuples are lists. *)
From Coq Require Import List Arith Bool Reals ZArith String.
From Verif Require Import Base DqModel AngleModel.
Import ListNotations.
Local Open Scope list_scope.

Section Combinations.
Variables n r : nat.
(** indices[i] = v *)
Fixpoint upd (i v : nat) (l : list nat) : list nat := match l, i with [], _ => [] | _ :: t, O => v :: t | x :: t, S k => x :: upd k v t end.
(** 199-203: from the last index down, the first one below its limit *)
Definition find_below (idx : list nat) : option nat := find (fun i => negb (nth i idx 0 =? i + n - r)) (rev (seq 0 r)).
(** 204-206 *)
Definition bump (i : nat) (idx : list nat) : list nat :=
  fold_left (fun l j => upd j (nth (j - 1) l 0 + 1) l) (seq (i + 1) (r - (i + 1))) (upd i (nth i idx 0 + 1) idx).
Definition next (idx : list nat) : option (list nat) := option_map (fun i => bump i idx) (find_below idx).
(** 198-207 *)
Fixpoint loop (fuel : nat) (idx : list nat) : option (list (list nat)) :=
  match fuel with
  | O => None
  | S k => match next idx with None => Some [] | Some idx' => option_map (cons idx') (loop k idx') end
  end.
Definition compute_combinations (fuel : nat) : option (list (list nat)) :=
  if n <? r then Some [] else option_map (cons (seq 0 r)) (loop fuel (seq 0 r)).
End Combinations.

Local Open Scope R_scope.

(** 465-492 and 543-551: a scan keeping the first smallest value below a
    bound; values that are nan are never kept *)
Definition scan_step (acc : R * option nat) (iv : nat * option R) : R * option nat :=
  match snd iv with Some v => if Rlt_dec v (fst acc) then (v, Some (fst iv)) else acc | None => acc end.
Definition scan (bound : R) (vs : list (option R)) : option nat := snd (fold_left scan_step (combine (seq 0 (List.length vs)) vs) (bound, None)).

(** numpy sort of three *)
Definition sort2 (a b : R) : R * R := if Rle_dec a b then (a, b) else (b, a).
Definition sort3 (a b c : R) : R * R * R := let '(a, b) := sort2 a b in let '(b, c) := sort2 b c in let '(a, b) := sort2 a b in (a, b, c).

Section Match.
Variable star : Type.
Variables ra dec : star -> R.
Variable sep : star -> star -> R.      (* separation on the sky, mas *)
Variable pa : star -> R.               (* position angle from the target, degrees *)
Variable predict : R -> R -> star -> R * R.   (* pixel position by the WCS of a plate scale and a north angle *)
Variable bright : list star -> list star.     (* the table sorted by VMAG *)
Notation sources := (list (R * R)).

Definition pixdist (p q : R * R) : R := sqrt ((fst p - fst q) ^ 2 + (snd p - snd q) ^ 2).
(** 478-493: the score of a sky triangle (sorted sides) against the image's (sorted
    sides).  A zero perimeter gives nan.  Zero image sides (coinciding sources)
    are not covered. *)
Definition score (guess tol : R) (img sky : R * R * R) : option R :=
  let '(l1, l2, l3) := img in let '(s1, s2, s3) := sky in
  let pi_ := l1 + l2 + l3 in let a := l1 / pi_ in let b := l2 / pi_ in let c := l3 / pi_ in
  let ps := s1 + s2 + s3 in
  let high l s := if Rlt_dec (guess * (1 + tol)) (s / l) then true else false in
  let low l s := if Rlt_dec (s / l) (guess * (1 - tol)) then true else false in
  if high l1 s1 || high l2 s2 || high l3 s3 || low l1 s1 || low l2 s2 || low l3 s3 then Some ((a - 0) ^ 2 + (b - 0) ^ 2 + (c - 0) ^ 2)
  else if Req_EM_T ps 0 then None
  else Some ((a - s1 / ps) ^ 2 + (b - s2 / ps) ^ 2 + (c - s3 / ps) ^ 2).
Definition sky_sides (stars : list star) (t : list nat) : option (R * R * R) :=
  match t with
  | [j; k; l] => match nth_error stars j, nth_error stars k, nth_error stars l with
                 | Some s1, Some s2, Some s3 => Some (sort3 (sep s1 s2) (sep s2 s3) (sep s3 s1))
                 | _, _, _ => None
                 end
  | _ => None
  end.
Fixpoint somes {A} (l : list (option A)) : list A := match l with [] => [] | Some x :: t => x :: somes t | None :: t => somes t end.

(** 543-553, with 540: one source.  The chosen star's coordinates, or IndexError. *)
Definition nearest (pred : list ((R * R) * star)) (s : R * R) : result star :=
  match scan 1000000 (map (fun p => Some ((fst s - fst (fst p)) ^ 2 + (snd s - snd (fst p)) ^ 2)) pred) with
  | Some i => match nth_error pred i with Some p => Ok (snd p) | None => Raise IndexError end
  | None => Raise IndexError
  end.
Definition in_image (p : (R * R) * star) : bool :=
  let '((x, y), _) := p in
  (if Rle_dec 0 x then true else false) && (if Rle_dec x 1024 then true else false) && (if Rle_dec 0 y then true else false) && (if Rle_dec y 1024 then true else false).

(** The whole of 414-558.  [cols] are the columns of the field, [fuel] the
    generator's, [tgt] the fitted pixel position of the target. *)
Definition match_sources (fuel : nat) (cols : list string) (srcs : sources) (tra tdec : R) (tgt : R * R) (field : list star) (threshold : nat) (radius guess tol : R)
  : result (list ((R * R) * (R * R))) :=
  let has c := existsb (String.eqb c) cols in
  if negb (has "VMAG"%string) then Raise ValueError
  else match srcs with
  | s1 :: s2 :: s3 :: _ =>
    if negb (has "RA"%string) || negb (has "DEC"%string) then Raise KeyError else
    let img := sort3 (pixdist s1 s2) (pixdist s2 s3) (pixdist s3 s1) in
    let subfield := filter (fun s => (if Rle_dec (tra - radius) (ra s) then true else false) && (if Rle_dec (ra s) (tra + radius) then true else false)
                                     && (if Rle_dec (tdec - radius) (dec s) then true else false) && (if Rle_dec (dec s) (tdec + radius) then true else false)) field in
    let stars := firstn threshold (bright subfield) in
    match compute_combinations (List.length stars) 3 fuel with
    | None => Raise PyException
    | Some combos =>
      let sides := somes (map (sky_sides stars) combos) in
      match scan 10000000000 (map (score guess tol img) sides) with
      | None => Raise IndexError
      | Some i =>
        match nth_error sides i, nth_error combos i with
        | Some (b1, b2, b3), Some t =>
          let '(l1, l2, l3) := img in
          let scale := (b1 / l1 + b2 / l2 + b3 / l3) / 3 in
          do ang <- mapR (angle_between Numpy tgt) [s1; s2; s3];
          match all_some ang, somes (map (nth_error stars) t) with
          | Some [a1; a2; a3], [t1; t2; t3] =>
            let north := Rabs (((pa t1 - a1) + (pa t2 - a2) + (pa t3 - a3)) / 3) in
            let pred := filter in_image (map (fun s => (predict scale north s, s)) subfield) in
            mapR (fun s => do m <- nearest pred s; Ok (s, (ra m, dec m))) srcs
          | _, _ => Raise IndexError
          end
        | _, _ => Raise IndexError
        end
      end
    end
  | _ => Raise IndexError
  end.
End Match.
