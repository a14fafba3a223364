(** What spherical coordinates are *)
From Coq Require Import Reals Ascii String.
From Verif Require Import Base SphereModel.
Local Open Scope R_scope.

(** The direction of the given angles, for each convention: the zenith angle is counted from the axis z, the elevation from the plane of x and y, the azimuth from x to y. *)
Definition direction_za (zenith azimuth : R) : R * R * R := (sin zenith * cos azimuth, sin zenith * sin azimuth, cos zenith).
Definition direction_ea (elevation azimuth : R) : R * R * R := (cos elevation * cos azimuth, cos elevation * sin azimuth, sin elevation).
Definition zenith_ok (t : R) : Prop := 0 <= t <= PI.
Definition elevation_ok (t : R) : Prop := - (PI / 2) <= t <= PI / 2.
Definition azimuth_ok (t : R) : Prop := 0 <= t < 2 * PI.
(** [describes c a v]: the angles a, in the convention c, describe the vector v *)
Inductive describes : string -> R * R -> R * R * R -> Prop :=
| Dza t p : describes "zenith,azimuth" (t, p) (direction_za t p)
| Daz t p : describes "azimuth,zenith" (p, t) (direction_za t p)
| Dea t p : describes "elevation,azimuth" (t, p) (direction_ea t p)
| Dae t p : describes "azimuth,elevation" (p, t) (direction_ea t p).
(** The angles are in their usual ranges *)
Inductive in_range : string -> R * R -> Prop :=
| Rza t p : zenith_ok t -> azimuth_ok p -> in_range "zenith,azimuth" (t, p)
| Raz t p : zenith_ok t -> azimuth_ok p -> in_range "azimuth,zenith" (p, t)
| Rea t p : elevation_ok t -> azimuth_ok p -> in_range "elevation,azimuth" (t, p)
| Rae t p : elevation_ok t -> azimuth_ok p -> in_range "azimuth,elevation" (p, t).
Definition unit (v : R * R * R) : Prop := let '(x, y, z) := v in x * x + y * y + z * z = 1.
Definition pole (v : R * R * R) : Prop := let '(x, y, z) := v in x = 0 /\ y = 0.
Definition scale2 (k : R) (a : R * R) : R * R := (k * fst a, k * snd a).
(** [written_as s n]: s is n with some letters in upper case and spaces added *)
Inductive written_as : string -> string -> Prop :=
| Wnil : written_as EmptyString EmptyString
| Wspace s n : written_as s n -> written_as (String " " s) n
| Wsame c s n : c <> " "%char -> ~ (65 <= Ascii.nat_of_ascii c <= 90)%nat -> written_as s n -> written_as (String c s) (String c n)
| Wupper c s n : (65 <= Ascii.nat_of_ascii c <= 90)%nat -> written_as s n -> written_as (String c s) (String (Ascii.ascii_of_nat (Ascii.nat_of_ascii c + 32)) n).
