(** Illumination drift correction of calibrate_nonlin,
    corgidrp/calibrate_nonlin.py 501-683, for one EM gain.

    A frame is its exposure time, its seconds since the first frame of the set
    (521) and its signal frame_mean1 (562-576, 592-608, 623-634: masked mean,
    not modelled; [None] is nan).  Exact rationals; [None] also stands for the
    infinities of divisions by zero. *)
From Coq Require Import List Arith Bool QArith ZArith.
From Verif Require Import Base DqModel StackModel.
Import ListNotations.
Local Open Scope list_scope.
Local Open Scope nat_scope.

Notation oq := (option Q) (only parsing).
Definition oadd (x y : oq) : oq := match x, y with Some a, Some b => Some (a + b)%Q | _, _ => None end.
Definition osub (x y : oq) : oq := match x, y with Some a, Some b => Some (a - b)%Q | _, _ => None end.
Definition omul (x y : oq) : oq := match x, y with Some a, Some b => Some (a * b)%Q | _, _ => None end.
Definition odiv (x y : oq) : oq :=
  match x, y with Some a, Some b => if Qeq_bool b 0 then None else Some (a / b)%Q | _, _ => None end.
Definition osum (l : list oq) : oq := fold_right oadd (Some 0%Q) l.
(** np.mean *)
Definition omean (l : list oq) : oq := odiv (osum l) (Some (inject_Z (Z.of_nat (List.length l)))).
(** np.nanmean *)
Definition onanmean (l : list oq) : oq := omean (filter (fun x => match x with Some _ => true | None => false end) l).

Record dfr : Type := mkdf { d_exp : Q; d_time : Q; d_sig : oq }.

(** 519, 545-547, 656 *)
Definition at_exp (t : Q) (l : list dfr) : list dfr := filter (fun f => Qeq_bool (d_exp f) t) l.
Definition first_half {X} (l : list X) : list X := firstn (List.length l / 2) l.

(** 508-512; [None] when there is no frame *)
Definition repeat_exp (l : list dfr) : option Q :=
  let es := quniq (map d_exp l) in
  match argmax (map (fun e => inject_Z (Z.of_nat (List.length (at_exp e l)))) es) with
  | Some i => nth_error es i
  | None => None
  end.

(** 518-527 *)
Definition mean_time (rep : Q) (l : list dfr) (t : Q) : oq :=
  let sel := at_exp t l in
  omean (map (fun f => Some (d_time f)) (if Qeq_bool t rep then first_half sel else sel)).
(** 582, 614 *)
Definition signal (rep : Q) (l : list dfr) (t : Q) : oq :=
  let sel := at_exp t l in
  if Qeq_bool t rep then onanmean (map d_sig (first_half sel)) else omean (map d_sig sel).
(** 615 and 617-641: the list frame_mean is not emptied between the halves and
    the second loop starts at first_half + 1 *)
Definition repeat1 (rep : Q) (l : list dfr) : oq := onanmean (map d_sig (first_half (at_exp rep l))).
Definition repeat2 (rep : Q) (l : list dfr) : oq :=
  let sel := at_exp rep l in
  onanmean (map d_sig (first_half sel ++ skipn (List.length sel / 2 + 1) sel)).

Record drift : Type := mkdr { dr_exps : list Q; dr_signal : list oq; dr_slope : oq; dr_inter : oq; dr_corr : list oq; dr_out : list oq }.

(** 501-683 *)
Definition drift_correct (min_exp : Q) (l : list dfr) : result drift :=
  match repeat_exp l with
  | None => Raise ValueError
  | Some rep =>
    let es := quniq (map d_exp l) in
    let gmt := map (mean_time rep l) es in
    let filt := filter (fun t => Qle_bool min_exp t) es in
    let ms := map (signal rep l) filt in
    if negb (Qle_bool min_exp rep) then Raise UnboundLocalError
    else
    let delta := osub (repeat2 rep l) (repeat1 rep l) in
    let sel := at_exp rep l in
    let t1 := omean (map (fun f => Some (d_time f)) (first_half sel)) in
    let t2 := omean (map (fun f => Some (d_time f)) (skipn (List.length sel / 2) sel)) in
    let slope := odiv delta (osub t2 t1) in
    let inter := osub (repeat1 rep l) (omul slope t1) in
    match gmt with
    | [] => Raise IndexError
    | g0 :: _ =>
      let obs := map (fun g => oadd (omul (osub g g0) slope) inter) gmt in
      let o0 := oadd (omul (osub g0 g0) slope) inter in
      let corr := map (fun o => odiv o o0) obs in
      do out <- zipR odiv ms corr;
      Ok (mkdr filt ms slope inter corr out)
    end
  end.
