(** * Independent description of the geometric quantities (C03-C05). *)
From Coquelicot Require Import Coquelicot.
From Verif Require Import Base RBase ModelGeom.
Local Open Scope R_scope.

(** Strictly increasing interface coordinates on the half-open index interval [a, b). *)
Definition increasing_on (x : Z -> R) (a b : Z) : Prop :=
  forall i, (a <= i < b)%Z -> x i < x (i + 1)%Z.

(** Volume of the spherical cell [r, rp] x [th, thp] x [ph, php]: the integral of r^2 sin th. *)
Definition sph_volume (r rp th thp ph php : R) : R :=
  RInt (fun a => RInt (fun b => RInt (fun _ => a * a * sin b) ph php) th thp) r rp.

(** Area of the face at radius r: integral of r^2 sin th over (th, ph). *)
Definition sph_area_r (r th thp ph php : R) : R :=
  RInt (fun b => RInt (fun _ => r * r * sin b) ph php) th thp.

(** Area of the face at polar angle th: integral of r sin th over (r, ph). *)
Definition sph_area_th (th r rp ph php : R) : R :=
  RInt (fun a => RInt (fun _ => a * sin th) ph php) r rp.

(** Area of the face at azimuth constant: integral of r over (r, th). *)
Definition sph_area_ph (r rp th thp : R) : R :=
  RInt (fun a => RInt (fun _ => a) th thp) r rp.

(** The angular extent covered by a cell: 1D runs cover the full sphere, 2D runs the full turn. *)
Definition sph_bounds (nd : nat) (m : mesh) (c : idx) : (R * R) * (R * R) :=
  ((if Nat.ltb nd 2 then (0, PI) else (m 1%nat (jj c), m 1%nat (jj c + 1)%Z)),
   (if Nat.ltb nd 3 then (0, 2 * PI) else (m 2%nat (kk c), m 2%nat (kk c + 1)%Z))).

(** The extents of the global coordinate arrays, src/main.cpp:217-219. *)
Definition global_coords (nd : nat) (nglob : idx) (ng : Z) (xglob : nat -> arr1) : Prop :=
  forall d, (d < 3)%nat ->
    a_ext (xglob d) = (coord d nglob + 2 * (if Nat.ltb d nd then ng else 0) + 1)%Z.

(** Merge the cells [a, b) of direction [d] into one. *)
Definition merged (m : mesh) (d : nat) (a b : Z) : mesh :=
  fun e i => if Nat.eqb e d then (if (i <=? a)%Z then m d a else m d b) else m e i.
