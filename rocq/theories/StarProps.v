(** C44: tuning parameters of the search for the star. *)
From Coq Require Import List Arith ZArith String Lia.
From Verif Require Import Base ComboSpec StarModel StarSpec StarProofs StarRunProofs.
Import ListNotations.

(** update_parameters: all overrides before the first unknown one are applied, nothing else changes;
    a KeyError if there is an unknown one. *)
Theorem C44_update : forall V (p new p' : params V) r, wf p -> update_parameters p new = (p', r) -> exists pre, applied p new pre (r = Ok tt) /\ overridden p pre p' /\ (r = Ok tt \/ r = Raise KeyError).
Proof. exact @update_spec. Qed.
Print Assumptions C44_update.
Theorem C44_applied_once : forall V (p new : params V) a b (x y : Prop), applied p new a x -> applied p new b y -> a = b /\ (x <-> y).
Proof. exact @applied_fun. Qed.
Print Assumptions C44_applied_once.
Definition shipped : params nat := [("offset", [("roi", 4); ("steps", 7)]); ("separation", [("roi", 1)])]%string.
Lemma shipped_wf : wf shipped.
Proof.
  split; [constructor; [intros [H|[]]; discriminate H|constructor; [intros []|constructor]]|]. intros sec s [H|[H|[]]]; injection H as <- <-; [constructor; [intros [E|[]]; discriminate E|constructor; [intros []|constructor]]|constructor; [intros []|constructor]].
Qed.
Example C44_update_used : wf shipped /\ update_parameters shipped [("offset", [("steps", 9)])]%string = ([("offset", [("roi", 4); ("steps", 9)]); ("separation", [("roi", 1)])]%string, Ok tt).
Proof. split; [exact shipped_wf|reflexivity]. Qed.
(** A refused override leaves those before it. *)
Theorem C44_rejected_refuted : exists (p new p' : params nat), wf p /\ wf new /\ update_parameters p new = (p', Raise KeyError) /\ p' <> p.
Proof.
  exists shipped, [("offset", [("steps", 9); ("width", 3)])]%string, [("offset", [("roi", 4); ("steps", 9)]); ("separation", [("roi", 1)])]%string. split; [exact shipped_wf|]. split; [|split; [reflexivity|discriminate]].
  split; [constructor; [intros []|constructor]|]. intros sec s [H|[]]; injection H as <- <-. constructor; [intros [E|[]]; discriminate E|constructor; [intros []|constructor]].
Qed.
Print Assumptions C44_rejected_refuted.

(** find_star: which parameters it uses, what it leaves of them for later, the frames it returns. *)
Theorem C44_find_star : forall V D G L (locate : G -> list D -> list D -> params V -> result L) df fs g over drop df' r m sci spots p, wfd df -> find_star locate df fs g over drop = (df', r) -> admissible fs m sci spots -> In (m, p) df ->
    exists pre p' (all : Prop), match over with None => pre = [] /\ p' = p /\ df' = df /\ all | Some new => applied p new pre all end /\ overridden p pre p' /\ changed df m p' df'
      /\ (~ all -> r = Raise KeyError)
      /\ (all -> match locate g (map f_data sci) (map f_data spots) p' with Raise e => r = Raise e | Ok loc => exists out, r = Ok out /\ Forall2 (located loc) (if drop then sci else fs) out end).
Proof. exact @find_star_spec. Qed.
Print Assumptions C44_find_star.
Theorem C44_find_star_refused : forall V D G L (locate : G -> list D -> list D -> params V -> result L) df fs g over drop df' r, wfd df -> find_star locate df fs g over drop = (df', r) ->
  ~ (exists m sci spots p, admissible fs m sci spots /\ In (m, p) df) -> df' = df /\ exists e, r = Raise e.
Proof. exact @find_star_refused. Qed.
Print Assumptions C44_find_star_refused.
(** Which exception: frames of one kind only, frames of two modes. *)
Theorem C44_one_kind : forall V D G L (locate : G -> list D -> list D -> params V -> result L) df fs g over drop m, fs <> [] -> (forall f, In f fs -> f_mode f = Some m) ->
  ((forall f, In f fs -> f_sat f = Some 0%Z) \/ (forall f, In f fs -> f_sat f = Some 1%Z)) -> find_star locate df fs g over drop = (df, Raise ValueError).
Proof. exact @find_star_one_kind. Qed.
Print Assumptions C44_one_kind.
Theorem C44_two_modes : forall V D G L (locate : G -> list D -> list D -> params V -> result L) df fs g over drop f f' m m', (forall f, In f fs -> exists m, f_mode f = Some m) -> (forall f, In f fs -> f_sat f = Some 0%Z \/ f_sat f = Some 1%Z) ->
  In f fs -> In f' fs -> f_mode f = Some m -> f_mode f' = Some m' -> m <> m' -> find_star locate df fs g over drop = (df, Raise AssertionError).
Proof. exact @find_star_two_modes. Qed.
Print Assumptions C44_two_modes.
(** Without overrides the parameters stay. *)
Theorem C44_untouched : forall V D G L (locate : G -> list D -> list D -> params V -> result L) df fs g drop df' r, wfd df -> find_star locate df fs g None drop = (df', r) -> df' = df.
Proof. exact @untouched. Qed.
Print Assumptions C44_untouched.
(** After any calls the parameters are the first ones under the overrides of all the calls before. *)
Theorem C44_history : forall V D G L (locate : G -> list D -> list D -> params V -> result L) cs df df' rs, wfd df -> run locate df cs = (df', rs) ->
  forall m p, In (m, p) df -> exists ls p', Forall2 (fun c l => leaves df c m l) cs ls /\ In (m, p') df' /\ overridden p (List.concat ls) p'.
Proof. exact @history. Qed.
Print Assumptions C44_history.
(** So an override stays: the same call without it returns the same. *)
Theorem C44_leak : forall V D G L (locate : G -> list D -> list D -> params V -> result L) df fs g new drop df' out, wfd df -> find_star locate df fs g (Some new) drop = (df', Ok out) -> find_star locate df' fs g None drop = (df', Ok out).
Proof. exact @leak. Qed.
Print Assumptions C44_leak.
Definition read_steps (g : unit) (a b : list nat) (p : params nat) : result nat := match find "offset" p with Some s => match find "steps" s with Some v => Ok v | None => Raise KeyError end | None => Raise KeyError end.
Definition two_frames : list (frame nat nat) := [mkframe (Some 0%Z) (Some "NFOV"%string) 1 None []; mkframe (Some 1%Z) (Some "NFOV"%string) 2 None []].
Theorem C44_independence_refuted : exists (df : defaults nat) fs new out out' df', wfd df /\ snd (find_star read_steps df fs tt None true) = Ok out
  /\ fst (find_star read_steps df fs tt (Some new) true) = df' /\ snd (find_star read_steps df' fs tt None true) = Ok out' /\ out <> out'.
Proof.
  exists [("NFOV"%string, shipped)], two_frames, [("offset", [("steps", 9)])]%string. eexists. eexists. eexists. split; [|split; [reflexivity|split; [reflexivity|split; [reflexivity|discriminate]]]].
  split; [constructor; [intros []|constructor]|]. intros m p [H|[]]. injection H as <- <-. exact shipped_wf.
Qed.
Print Assumptions C44_independence_refuted.
Example C44_find_star_used : admissible two_frames "NFOV" [mkframe (Some 0%Z) (Some "NFOV"%string) 1 None []] [mkframe (Some 1%Z) (Some "NFOV"%string) 2 None []].
Proof. apply admissible_iff. split; [split; intros f [<-|[<-|[]]]; auto|]. split; [reflexivity|]. split; [reflexivity|]. split; discriminate. Qed.

(** validate_satellite_spot_parameters never accepts. *)
Theorem C44_validate_refuted : forall v, validate v <> Ok true.
Proof. exact validate_never. Qed.
Print Assumptions C44_validate_refuted.
Theorem C44_validate_raises : forall d s, NoDup (map fst d) -> In ("offset"%string, VDict s) d -> validate (VDict d) = Raise KeyError.
Proof. exact validate_raises. Qed.
Print Assumptions C44_validate_raises.
