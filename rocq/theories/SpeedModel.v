(** * The speed slider of the window (src/visualization/systems/ui_system.rs)

    Every frame the panel reads the time between two steps, shows the steps per second in a
    slider, and writes the time back (L53-L60).  The time is a [std::time::Duration], here
    its number of nanoseconds; [as_secs_f64] and [from_secs_f64] are modelled by their
    documentation, [set_timestep_seconds] by bevy's (it panics for seconds that are not
    positive or not finite and for a duration of zero). *)
From Coq Require Import ZArith List Bool.
From Verif Require Import F32 OptModel F64.
Import ListNotations.
Local Open Scope Z_scope.

Definition billion : Z := 1000000000.

(** [Duration::as_secs_f64], used at ui_system.rs L54: the whole seconds plus the
    nanoseconds divided by a billion. *)
Definition as_secs_f64 (n : Z) : f64 :=
  dadd (d_of_Z (n / billion)) (ddiv (d_of_Z (n mod billion)) (d_of_Z billion)).

(** The integer nearest to [a / b], the even one of two. *)
Definition div_nearest (a b : Z) : Z :=
  let q := a / b in
  match 2 * (a mod b) ?= b with
  | Lt => q
  | Gt => q + 1
  | Eq => if Z.even q then q else q + 1
  end.
(** [Duration::from_secs_f64]: the nearest number of nanoseconds; [None] is its panic. *)
Definition from_secs_f64 (x : f64) : option Z :=
  match x with
  | S754_zero _ => Some 0
  | S754_finite false m e =>
      let n := if 0 <=? e then Zpos m * billion * 2 ^ e else div_nearest (Zpos m * billion) (2 ^ (- e)) in
      if n <? 2 ^ 64 * billion then Some n else None
  | _ => None
  end.
(** bevy's [Time::<Fixed>::set_timestep_seconds], called at ui_system.rs L60. *)
Definition set_timestep_seconds (x : f64) : option Z :=
  match from_secs_f64 x with
  | Some 0 | None => None
  | Some n => Some n
  end.

(** The range of the slider, [0.1..=250.0] (ui_system.rs L56). *)
Definition slowest : f64 := ddiv (d_of_Z 1) (d_of_Z 10).
Definition fastest : f64 := d_of_Z 250.
(** [f64::clamp]. *)
Definition clamp (x : f64) : f64 :=
  if dltb x slowest then slowest else if dltb fastest x then fastest else x.

(** The slider (ui_system.rs L55-L59).  [Chosen v] is what the user drags or types, limited
    to the range; a slider that is left alone may ([Left true]) or may not limit the value it
    was given, which depends on the version of egui. *)
Inductive touch : Type := Left (limits : bool) | Chosen (v : f64).
Definition slide (shown : f64) (t : touch) : f64 :=
  match t with Left true => clamp shown | Left false => shown | Chosen v => clamp v end.

(** What the slider shows in a frame (ui_system.rs L54). *)
Definition steps_per_second (n : Z) : f64 := ddiv d1 (as_secs_f64 n).
(** One frame (ui_system.rs L54-L60): from the time between two steps to the new one. *)
Definition speed_frame (n : Z) (t : touch) : option Z :=
  set_timestep_seconds (ddiv d1 (slide (steps_per_second n) t)).
Fixpoint speed_frames (n : Z) (ts : list touch) : option Z :=
  match ts with
  | [] => Some n
  | t :: ts' => match speed_frame n t with Some n' => speed_frames n' ts' | None => None end
  end.
(** [Time::<Fixed>::default()] (visualization.rs L127): 15625 microseconds, 64 a second. *)
Definition default_timestep : Z := 15625000.
