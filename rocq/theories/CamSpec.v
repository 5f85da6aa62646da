(** * What a user expects of the picture (C131)

    Exact numbers. *)
From Coq Require Import List Reals.
From Verif Require Import FieldModel FieldReal CamModel.
Import ListNotations.
Open Scope R_scope.

(** The size of the window after the resizes: the last one, at first 1280 by 720. *)
Definition final_size (frames : list (list (window RA))) : window RA :=
  last (concat frames) (Window (A := RA) 1280 720).

(** The window without the panel, which covers the 300 pixels on the left. *)
Definition beside_panel (win : window RA) (px py : R) : Prop :=
  300 <= px <= w_width RA win /\ 0 <= py <= w_height RA win.
(** The simulation. *)
Definition in_simulation (v : visualization RA) (p : R * R) : Prop :=
  0 <= fst p <= v_sim_width RA v /\ 0 <= snd p <= v_sim_height RA v.

(** The dimensions of the simulation that the calls of the builder ask for: those of the last
    call, 300 by 300 if there is none. *)
Definition asked_simulation (calls : list (builder_call RA)) : R * R :=
  last (flat_map (fun k => match k with CallSimulation w h => [(w, h)] | CallWindow _ _ => [] end) calls) (300, 300).
