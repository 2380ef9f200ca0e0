(** * What a drawing shows, as point sets; independent of the model's plotting code. *)
From Coq Require Import Reals List.
From Verif.Spec Require Import Geometry.
Import ListNotations.
Local Open Scope R_scope.

(** The positions of a scatter plot given by coordinate lists (one list per axis). *)
Definition marker (cols : list (list R)) (x : pt) : Prop :=
  exists i, (forall c, In c cols -> (i < length c)%nat) /\ x = map (fun c => nth i c 0) cols.
(** The polyline through the positions given by coordinate lists. *)
Definition polyline (cols : list (list R)) (x : pt) : Prop :=
  exists i, (forall c, In c cols -> (S i < length c)%nat) /\
    on_segment (map (fun c => nth i c 0) cols) (map (fun c => nth (S i) c 0) cols) x.
(** [t] lies between [a] and [b], whichever is larger. *)
Definition between (a b t : R) : Prop := a <= t <= b \/ b <= t <= a.
