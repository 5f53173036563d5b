(** Sorting of pupil-imaging frames: corgidrp/sorting.py.

    A dataset is the list of its frames; the selected frames are returned by
    position.  Exposure times and gains are rationals compared by value.
    np.argsort is a stable sort here (numpy leaves the order of equal ids open).
    Messages are left out. *)
From Coq Require Import List Arith Bool QArith ZArith String Ascii.
From Verif Require Import Base DqModel.
Import ListNotations.
Local Open Scope Z_scope.
Local Open Scope list_scope.

Record sfr : Type := mksfr { s_name : string; s_path : string; s_gain : option Q; s_exp : option Q; s_vis : option string }.

(** extract_frame_id 6-20.  int() of anything but digits is a ValueError
    (Python also accepts blanks and a sign: not modelled). *)
Definition digit (c : ascii) : option Z :=
  let n := Z.of_nat (nat_of_ascii c) in if (48 <=? n) && (n <=? 57) then Some (n - 48) else None.
Fixpoint digits (acc : Z) (l : list ascii) : option Z :=
  match l with [] => Some acc | c :: r => match digit c with Some d => digits (10 * acc + d) r | None => None end end.
Definition int_of (l : list ascii) : result Z :=
  match l with [] => Raise ValueError | _ => match digits 0 l with Some z => Ok z | None => Raise ValueError end end.
Fixpoint find_char (c : ascii) (l : list ascii) : Z :=
  match l with [] => -1 | x :: r => if Ascii.eqb x c then 0 else let k := find_char c r in if k <? 0 then -1 else k + 1 end.
Definition pyslice {A} (l : list A) (i j : Z) : list A := firstn (Z.to_nat (j - i)) (skipn (Z.to_nat i) l).   (* 0 <= i, 0 <= j *)
Definition extract_frame_id (name : string) : result Z :=
  let l := list_ascii_of_string name in
  let n := Z.of_nat (List.length l) in
  let i0 := n - find_char "_" (rev l) in
  let i1 := n - find_char "." (rev l) - 1 in
  int_of (pyslice l i0 i1).

(** split_dataset on one key (C07): groups in increasing order of the key *)
Fixpoint insertQ (q : Q) (l : list Q) : list Q :=
  match l with [] => [q] | x :: r => if Qeq_bool q x then l else if Qle_bool q x then q :: l else x :: insertQ q r end.
Definition keysQ (l : list Q) : list Q := fold_right insertQ [] l.
Definition split_by (key : sfr -> option Q) (l : list (nat * sfr)) : result (list (Q * list (nat * sfr))) :=
  do ks <- mapR (fun f => getkey (key (snd f))) l;
  Ok (map (fun k => (k, filter (fun f => match key (snd f) with Some q => Qeq_bool q k | None => false end) l)) (keysQ ks)).

(** 61, 77, 160, 230: np.argmax, the first largest *)
Fixpoint argmax_from (i best : nat) (m : Z) (l : list Z) : nat :=
  match l with [] => best | x :: r => if m <? x then argmax_from (S i) i x r else argmax_from (S i) best m r end.
Definition argmax (l : list Z) : option nat := match l with [] => None | x :: r => Some (argmax_from 1 0 x r) end.

(** 62-80: ids sorted, runs of step one, the first longest run *)
Fixpoint insertZ (z : Z) (l : list Z) : list Z := match l with [] => [z] | x :: r => if z <=? x then z :: l else x :: insertZ z r end.
Definition sortZ (l : list Z) : list Z := fold_right insertZ [] l.
Fixpoint counts (prev : Z) (c : Z) (l : list Z) : list Z :=
  match l with [] => [c] | b :: r => if b - prev =? 1 then counts b (c + 1) r else c :: counts b 1 r end.
Definition count_cons (l : list Z) : list Z := match l with [] => [1] | a :: r => counts a 1 r end.
Definition sumZ (l : list Z) : Z := fold_right Z.add 0 l.
Definition mean_ids (ids : list Z) : result (list Z) :=
  let s := sortZ ids in
  let c := count_cons s in
  match argmax c with
  | None => Raise ValueError
  | Some k => let last := sumZ (firstn (S k) c) in Ok (pyslice s (last - nth k c 0) last)
  end.
Definition memZ (z : Z) (l : list Z) : bool := existsb (Z.eqb z) l.

(** 53-91, 105-106: positions of the mean frames, and the unity-gain frames of the other
    exposure times, in the order of the exposure times *)
Definition nth_del {A} (n : nat) (l : list A) : list A := firstn n l ++ skipn (S n) l.
Definition with_id (f : nat * sfr) : result (Z * (nat * sfr)) := do i <- extract_frame_id (s_name (snd f)); Ok (i, f).
Definition mean_stage (unity : list (nat * sfr)) : result (list nat * list (nat * sfr)) :=
  do groups <- split_by s_exp unity;
  match argmax (map (fun g => Z.of_nat (List.length (snd g))) groups) with
  | None => Raise ValueError
  | Some k =>
    let g := nth k groups (0%Q, []) in
    do fi <- mapR with_id (snd g);
    do ids <- mean_ids (map fst fi);
    Ok (map (fun p => fst (snd p)) (filter (fun p => memZ (fst p) ids) fi), flat_map snd (nth_del k groups))
  end.

(** 108-118, 195-206: frames as (id, exposure time, file path), sorted by id *)
Notation row := (Z * Q * string)%type (only parsing).
Definition rid (r : row) : Z := fst (fst r).
Definition rexp (r : row) : Q := snd (fst r).
Fixpoint insertR (x : row) (l : list row) : list row := match l with [] => [x] | y :: r => if rid x <=? rid y then x :: l else y :: insertR x r end.
Definition sortR (l : list row) : list row := fold_right insertR [] l.
Definition to_row (f : nat * sfr) : result row :=
  do i <- extract_frame_id (s_name (snd f)); do e <- getkey (s_exp (snd f)); Ok (i, e, s_path (snd f)).

(** 119-130: runs of equal exposure time: (exptime_cons, count_cons) *)
Fixpoint runs (e : Q) (c : Z) (l : list Q) : list (Q * Z) :=
  match l with [] => [(e, c)] | x :: r => if Qeq_bool x e then runs e (c + 1) r else (e, c) :: runs x 1 r end.
Definition qlt (a b : Q) : bool := negb (Qle_bool b a).
Definition memQ (q : Q) (l : list Q) : bool := existsb (Qeq_bool q) l.
Fixpoint dedupQ (l : list Q) : list Q := match l with [] => [] | x :: r => if memQ x r then dedupQ r else x :: dedupQ r end.
Fixpoint all_step1 (l : list Z) : bool := match l with a :: ((b :: _) as r) => (b - a =? 1) && all_step1 r | _ => true end.

(** 132-157: the search.  [times] is exptime_cons2, None once it holds a list,
    of which set() is a TypeError; [start] is idx_cons2[0]. *)
Fixpoint search (ids : list Z) (es : list Q) (cs : list Z) (idx left : nat) (times : option (list Q)) (start : nat) (found : list (nat * nat)) : result (list (nat * nat)) :=
  match left with
  | O => Ok found
  | S left' =>
    let e0 := nth idx es 0%Q in let e1 := nth (S idx) es 0%Q in
    let sub := pyslice ids (sumZ (firstn idx cs)) (sumZ (firstn (idx + 2) cs)) in
    if (nth (S idx) cs 0 =? nth idx cs 0) && all_step1 sub && qlt e0 e1
    then search ids es cs (S idx) left' (match times with Some t => Some (t ++ [e1]) | None => None end) start found
    else if qlt e1 e0 && memQ e1 (firstn (S idx) es) then
      match times with
      | None => Raise TypeError
      | Some t => if Nat.eqb (List.length t) (List.length (dedupQ t))
                  then search ids es cs (S idx) left' None (S idx) (found ++ [(start, S idx)])
                  else search ids es cs (S idx) left' times start found
      end
    else search ids es cs (S idx) left' times start found
  end.

(** 105-171: file paths selected for K-gain *)
Definition kgain_paths (rest : list (nat * sfr)) : result (list string) :=
  do rows <- mapR to_row rest;
  let s := sortR rows in
  match s with
  | [] => Raise IndexError
  | r0 :: _ =>
    (* the first element is counted twice, then once removed *)
    let g := runs (rexp r0) 0 (map rexp s) in
    let es := map fst g in let cs := map snd g in
    do found <- search (map rid s) es cs 0 (List.length cs - 1) (Some [nth 0 es 0%Q]) 0 [];
    match argmax (map (fun p => Z.of_nat (snd p) - Z.of_nat (fst p)) found) with
    | None => Raise ValueError
    | Some k =>
      let '(a, b) := nth k found (0%nat, 0%nat) in
      let first := sumZ (firstn a cs) in
      Ok (pyslice (map snd s) first (first + sumZ (firstn (b + 1 - a) (skipn a cs))))
    end
  end.

(** 172-180, 239-245: the frames of the whole dataset with a selected path *)
Definition mems (s : string) (l : list string) : bool := existsb (String.eqb s) l.
Definition pick (all : list (nat * sfr)) (paths : list string) : result (list nat) :=
  mapR (fun f => do _ <- getkey (s_vis (snd f)); Ok (fst f)) (filter (fun f => mems (s_path (snd f)) paths) all).

(** 193-238: one set of frames with the same non-unity gain *)
Fixpoint drops (i : nat) (l : list Q) : list nat :=
  match l with a :: ((b :: _) as r) => if qlt b a then i :: drops (S i) r else drops (S i) r | _ => [] end.
Definition nslice {A} (l : list A) (i j : nat) : list A := firstn (j - i) (skipn i l).
Definition candidate (arr : list Q) (a d : nat) : Z :=
  let t := nslice arr a (d + 2) in
  match rev t with
  | [] => -1
  | x :: up => if memQ x up && Nat.eqb (List.length t - 1) (List.length (dedupQ t)) then Z.of_nat (List.length t) else -1
  end.
Fixpoint cand_lens (arr : list Q) (a : nat) (ds : list nat) : list Z :=
  match ds with [] => [] | d :: r => candidate arr a d :: cand_lens arr (d + 1) r end.
Definition nonlin_paths (set : list (nat * sfr)) : result (list string) :=
  do rows <- mapR to_row set;
  if (List.length rows <? 3)%nat then Ok []
  else
  let s := sortR rows in
  let arr := map rexp s in
  let ds := drops 0 arr in
  match ds with
  | [] => Ok []
  | _ =>
    let lens := cand_lens arr 0 ds in
    match argmax lens with
    | None => Raise ValueError
    | Some k =>
      if nth k lens 0 <=? 0 then Ok []
      else
      let a := match k with O => 0%nat | S k' => (nth k' ds 0 + 1)%nat end in
      Ok (nslice (map snd s) a (nth k ds 0 + 2)%nat)
    end
  end.
Fixpoint nonlin_all (all : list (nat * sfr)) (sets : list (Q * list (nat * sfr))) : result (list nat) :=
  match sets with
  | [] => Ok []
  | g :: r => do p <- nonlin_paths (snd g); do x <- pick all p; do y <- nonlin_all all r; Ok (x ++ y)
  end.

(** 97-102, 187 *)
Definition lower (c : ascii) : ascii := let n := nat_of_ascii c in if ((65 <=? n) && (n <=? 90))%nat then ascii_of_nat (n + 32) else c.
Definition lowers (s : string) : string := string_of_list_ascii (map lower (list_ascii_of_string s)).
Inductive caltype : Type := KGain | NonLin.
Definition cal_type (s : string) : option caltype :=
  let l := lowers s in
  if String.eqb l "k-gain" || String.eqb l "kgain" then Some KGain
  else if String.eqb (substring 0 7 l) "non-lin" || String.eqb (substring 0 6 l) "nonlin" then Some NonLin
  else None.

(** sort_pupilimg_frames 22-262: positions labelled MNFRAME, KGAIN and NONLIN, in the order of the output *)
Fixpoint number {A} (i : nat) (l : list A) : list (nat * A) := match l with [] => [] | x :: r => (i, x) :: number (S i) r end.
Fixpoint find_unity (i : nat) (l : list (Q * list (nat * sfr))) : option nat :=
  match l with [] => None | g :: r => if Qeq_bool (fst g) 1 then Some i else find_unity (S i) r end.
Definition sort_pupilimg_frames (ty : string) (fs : list sfr) : result (list nat * list nat * list nat) :=
  let all := number 0 fs in
  do gains <- split_by s_gain all;
  match find_unity 0 gains with
  | None => Raise IndexError
  | Some u =>
    do m <- mean_stage (snd (nth u gains (0%Q, [])));
    match cal_type ty with
    | None => Raise PyException
    | Some t =>
      do kp <- kgain_paths (snd m);
      do ks <- pick all kp;
      do ns <- (match t with KGain => Ok [] | NonLin => nonlin_all all (nth_del u gains) end);
      Ok (fst m, ks, ns)
    end
  end.
