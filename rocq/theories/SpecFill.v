(** * The continuation of the fields into the ghost cells (C98). *)
From Verif Require Import Base RBase ModelMesh ModelBoundary SpecBoundary.
Local Open Scope Z_scope.

(** The cell a ghost cell takes its values from, in one direction with [n] cells, numbered from 0; [bl] and [br]
    are the conditions at the two ends. *)
Definition continue (bl br : bcond) (n x : Z) : Z :=
  if x <? 0 then match bl with Periodic => x mod n | NullGradient => 0 | Reflexive => - 1 - x end
  else if n <=? x then match br with Periodic => x mod n | NullGradient => n - 1 | Reflexive => 2 * n - 1 - x end
  else x.
(** Behind a wall the momentum changes sign. *)
Definition turned (bl br : bcond) (n x : Z) : bool :=
  if x <? 0 then match bl with Reflexive => true | _ => false end
  else if n <=? x then match br with Reflexive => true | _ => false end
  else false.

(** The global field [G] of [N] cells continued in all directions at once to the cell number [g]. *)
Definition continuation (nd : nat) (N : idx) (bcs : nat -> bcond) (G : idx -> cell) (g : idx) : cell :=
  let x := G (mk3 (fun d => if Nat.ltb d nd
                            then continue (bcs (2 * d)%nat) (bcs (2 * d + 1)%nat) (coord d N) (coord d g)
                            else coord d g)) in
  mkCell (c_rho x)
    (fun k => if (Nat.ltb k nd && turned (bcs (2 * k)%nat) (bcs (2 * k + 1)%nat) (coord k N) (coord k g))%bool
              then (- c_rhou x k)%R else c_rhou x k)
    (c_E x) (c_fx x).

(** Every face with a physical condition is treated, in some order, possibly several times. *)
Definition complete_order (nd : nat) (bcs : nat -> bcond) (order : list nat) : Prop :=
  faces_ok nd order /\ forall f, (f < 2 * nd)%nat -> bcs f <> Periodic -> In f order.
