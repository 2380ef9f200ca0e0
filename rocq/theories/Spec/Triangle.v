(** * Vocabulary about a triangle with vertices [a], [b], [c] (no reference to the model) *)
From Coq Require Import String Reals List.
From Verif.Spec Require Import Geometry.
Import ListNotations.
Local Open Scope R_scope.
Local Open Scope string_scope.

(** [v] is the name of the vertex [p]; [q] and [r] are the other two vertices, in cyclic order. *)
Definition vertex_named (a b c : pt) (v : string) (p q r : pt) : Prop :=
  (v = "A" /\ p = a /\ q = b /\ r = c) \/ (v = "B" /\ p = b /\ q = c /\ r = a) \/ (v = "C" /\ p = c /\ q = a /\ r = b).
(** [s] is the name of the side from [q] to [r], the one opposite to the vertex [p]. *)
Definition side_named (a b c : pt) (s : string) (p q r : pt) : Prop :=
  (s = "a" /\ p = a /\ q = b /\ r = c) \/ (s = "b" /\ p = b /\ q = c /\ r = a) \/ (s = "c" /\ p = c /\ q = a /\ r = b).
Definition is_vertex_name (v : string) : Prop := v = "A" \/ v = "B" \/ v = "C".
Definition is_side_name (s : string) : Prop := s = "a" \/ s = "b" \/ s = "c".

(** [x] is on the altitude through [p] of the triangle with the other vertices [q], [r]: on the line through
    [p] and the foot of the perpendicular from [p] to the line [q r]. *)
Definition foot_of (p q r f : pt) : Prop := on_line q (sub r q) f /\ dot (sub f p) (sub r q) = 0.
Definition on_altitude (p q r x : pt) : Prop := exists f, foot_of p q r f /\ on_line p (sub f p) x.
