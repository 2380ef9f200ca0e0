(** * Provenance: which results of a call share the memory of which arguments *)
From Coq Require Import List.
From Verif.Model Require Import Outcome Num Numpy BaseArray Line Plane LineSegment Sphere Cylinder Triangle Heap.
Import ListNotations.

(** The existing objects whose memory the result of a call shares: a Point or Vector made from an existing
    1D array, a composite object made from such arrays, an attribute, a slice, a row, and the result of
    round share; Points(...), to_array, set_dimension and every other call return new memory. *)
Definition refs {N : Num} (args : list (source N)) : list nat :=
  flat_map (fun a => match a with SRef h => [h] | SList _ => [] end) args.
Definition shares {N : Num} (o : op N) : list nat :=
  match o with
  | OPoint a | OVector a => refs [a]
  | OComp _ args => refs args
  | OField h _ | OSlice h _ | ORow h _ | ORound h _ => [h]
  | ONew1 _ | ONew2 _ | OPoints _ | OSet1 _ _ _ | OSet2 _ _ _ _ | OToArray _ | OSetDim _ _ | OQuery _ _ => []
  end.
(** The object whose items a call writes. *)
Definition writes {N : Num} (o : op N) : option nat :=
  match o with OSet1 h _ _ | OSet2 h _ _ _ | ORound h _ => Some h | _ => None end.

(** In the history [os] from state [s], no call writes through one of the objects [T], or through an object
    that shares memory with one of them by the above rule. *)
Fixpoint untouched {N : Num} LA np1 (T : nat -> Prop) (s : state N) (os : list (op N)) : Prop :=
  match os with
  | [] => True
  | o :: rest =>
      match writes o with Some h => ~ T h | None => True end /\
      untouched LA np1 (fun j => T j \/ (length (live s) <= j < length (live (after LA np1 s o)) /\ exists h, In h (shares o) /\ T h))
        (after LA np1 s o) rest
  end.

(** The numbers [v] an argument of a constructor stands for when it is called: those of the list, or those the
    existing 1D array shows at that time. *)
Definition arg_value {N : Num} (s : state N) (a : source N) (v : vec N) : Prop :=
  match a with
  | SList l => l = nd_of_vec v
  | SRef h => look s h = Some [v] /\ exists k addr, nth_error (live s) h = Some (A1 k addr)
  end.
(** The constructor of the class accepts these attributes. *)
Inductive built {N : Num} (LA : linalg N) : comp -> list (vec N) -> Prop :=
| built_line : forall p d l, line_new p d = Ok l -> built LA XLine [p; d]
| built_plane : forall p n l, plane_new p n = Ok l -> built LA XPlane [p; n]
| built_segment : forall a b l, segment_new a b = Ok l -> built LA XSegment [a; b]
| built_circle : forall p r c, circle_new p r = Ok c -> built LA (XCircle r) [p]
| built_sphere : forall p r c, sphere_new p r = Ok c -> built LA (XSphere r) [p]
| built_cylinder : forall p v r c, cylinder_new p v r = Ok c -> built LA (XCylinder r) [p; v]
| built_triangle : forall a b c t, triangle_new LA a b c = Ok t -> built LA XTriangle [a; b; c].
