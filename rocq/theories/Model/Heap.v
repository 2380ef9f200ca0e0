(** * Memory: which objects share their values with which arrays

    A heap of numbers; every ndarray, Point, Vector, Points object is a view on some cells, every
    composite object (Line, Plane, ...) holds such views.  The operations below are all the ways in
    which a caller can create, alter or read objects; they return new objects (appended to the list of
    live objects) or raise, in which case nothing changes. *)
From Coq Require Import String ZArith List Bool.
From Verif.Model Require Import Outcome Num Numpy BaseArray Vector Line Plane LineSegment Sphere Triangle Cylinder.
Import ListNotations.
Local Open Scope string_scope.

Section Heap.
Context {N : Num}.

(** Python type of an array object. *)
Inductive kind : Type := KArray | KPoint | KVector | KPoints.

(** A live object: a 1D array (addresses of its items), a 2D array (addresses of its rows), or a
    composite object with the addresses of its Point/Vector attributes. *)
Inductive handle : Type :=
| A1 (k : kind) (addr : list nat)
| A2 (k : kind) (rows : list (list nat))
| Comp (fields : list (list nat)).

(** All memory cells and all objects created so far. *)
Record state : Type := MkState { cells : list N; live : list handle }.

(** The numbers at the given addresses. *)
Definition read (m : list N) (addr : list nat) : vec N := map (fun a => nth a m n0) addr.
(** The numbers an object shows: one row for a 1D array, the rows of a 2D array, the attributes of a
    composite object. *)
Definition value (m : list N) (h : handle) : list (vec N) :=
  match h with
  | A1 _ a => [read m a]
  | A2 _ rows => map (read m) rows
  | Comp fs => map (read m) fs
  end.
Definition look (s : state) (i : nat) : option (list (vec N)) := option_map (value (cells s)) (nth_error (live s) i).

(** Fresh cells for the rows [rs]. *)
Fixpoint fresh (base : nat) (rs : list (vec N)) : list (list nat) :=
  match rs with [] => [] | r :: rest => seq base (length r) :: fresh (base + length r) rest end.
Definition alloc1 (s : state) (k : kind) (v : vec N) : state :=
  MkState (cells s ++ v) (live s ++ [A1 k (seq (length (cells s)) (length v))]).
Definition alloc2 (s : state) (k : kind) (rs : list (vec N)) : state :=
  MkState (cells s ++ concat rs) (live s ++ [A2 k (fresh (length (cells s)) rs)]).
Definition push (s : state) (h : handle) : state := MkState (cells s) (live s ++ [h]).

(** Writing one value into a cell; into a list of cells, one after the other. *)
Fixpoint upd (m : list N) (a : nat) (x : N) : list N :=
  match m, a with
  | [], _ => []
  | _ :: m', O => x :: m'
  | y :: m', S a' => y :: upd m' a' x
  end.
Fixpoint upds (m : list N) (addr : list nat) (xs : vec N) : list N :=
  match addr, xs with
  | a :: addr', x :: xs' => upds (upd m a x) addr' xs'
  | _, _ => m
  end.

(** An argument: a literal (nested) list, or a live object. *)
Inductive source : Type := SList (a : nd N) | SRef (h : nat).

(** The classes of composite objects with their non-array arguments. *)
Inductive comp : Type :=
| XLine | XPlane | XSegment | XCircle (radius : N) | XSphere (radius : N) | XCylinder (radius : N) | XTriangle.

(** One call made by the user of the library; the code cited at [step]. *)
Inductive op : Type :=
| ONew1 (v : vec N)                         (* numpy.array of a list of numbers *)
| ONew2 (rows : list (vec N))               (* numpy.array of a rectangular list of lists *)
| OPoint (s : source) | OVector (s : source) | OPoints (s : source)
| OComp (c : comp) (args : list source)     (* Line(point, direction), Plane, LineSegment, Circle, ... *)
  (* Line.from_points(a, b), Cylinder.from_points, Triangle.line and Triangle.altitude are OComp with the point given as
     SRef (it is handed on unchanged: line.py 117-119, cylinder.py 152-154, triangle.py 306-318, 480-494) and the
     computed vector as SList; Plane.from_vectors and Plane.from_points pad the point first (plane.py 137), which
     copies it: both arguments are SList *)
| OField (h k : nat)                        (* an attribute of a composite object, e.g. line.point; Triangle.point *)
| OSlice (h : nat) (idx : list nat)         (* basic slicing of a 1D array: a view of the chosen items *)
| ORow (h i : nat)                          (* one row of a 2D array: a view *)
| OSet1 (h i : nat) (x : N)                 (* h[i] = x *)
| OSet2 (h i j : nat) (x : N)               (* h[i, j] = x *)
| ORound (h : nat) (decimals : Z)           (* h.round(decimals) *)
| OToArray (h : nat)                        (* h.to_array() *)
| OSetDim (h : nat) (dim : Z)               (* h.set_dimension(dim) *)
| OQuery (hs : list nat) (g : list (list (vec N)) -> res (list (vec N))).
  (* any other method or function of the library: it reads its arguments and returns numbers in fresh memory *)

(** numpy: indexing out of bounds; Python: no such attribute. *)
Definition err_index : exn := IndexError "index out of bounds".
Definition err_type : exn := TypeError "no such method".

(** _base_array.py 22-32 and 131-137 [Point]/[Vector]: np.asarray(array).view(cls).  A list is copied into
    fresh memory; an ndarray (or Point, Vector) is not copied. *)
Definition new1 (s : state) (k : kind) (a : source) : res state :=
  match a with
  | SList l => let* v := array1d_new l in Ok (alloc1 s k v)
  | SRef h =>
      match nth_error (live s) h with
      | Some (A1 _ addr) => let* _ := array1d_new (nd_of_vec (read (cells s) addr)) in Ok (push s (A1 k addr))
      | Some (A2 _ rows) => let* _ := array1d_new (nd_of_rows (map (read (cells s)) rows)) in Raise err_1d
      | _ => Raise err_type
      end
  end.
(** _base_array.py 190-196 [Points]: np.array(array_like) copies, whatever the argument. *)
Definition new2 (s : state) (a : source) : res state :=
  match a with
  | SList l => let* rs := array2d_new l in Ok (alloc2 s KPoints rs)
  | SRef h =>
      match nth_error (live s) h with
      | Some (A1 _ addr) => let* _ := array2d_new (nd_of_vec (read (cells s) addr)) in Raise err_2d
      | Some (A2 _ rows) => let* rs := array2d_new (nd_of_rows (map (read (cells s)) rows)) in Ok (alloc2 s KPoints rs)
      | _ => Raise err_type
      end
  end.

(** The attributes of a composite object are built by Point(...)/Vector(...) one after the other; the
    intermediate objects are only reachable through the composite one. *)
Fixpoint fields (m : list N) (lv : list handle) (args : list source) : res (list N * list (list nat)) :=
  match args with
  | [] => Ok (m, [])
  | a :: rest =>
      let* s := new1 (MkState m lv) KPoint a in
      match last (live s) (Comp []) with
      | A1 _ addr => let* (m', fs) := fields (cells s) lv rest in Ok (m', addr :: fs)
      | _ => Raise err_type
      end
  end.
(** The checks of the constructors (_base_line_plane.py 17-27, line_segment.py 53-58, _base_sphere.py 17-24,
    circle.py 74-78, sphere.py 75-79, cylinder.py 98-116, triangle.py 64-75) on the values. *)
Definition comp_check (LA : linalg N) (c : comp) (vs : list (vec N)) : res unit :=
  match c, vs with
  | XLine, [p; d] => let* _ := line_new p d in Ok tt
  | XPlane, [p; n] => let* _ := plane_new p n in Ok tt
  | XSegment, [a; b] => let* _ := segment_new a b in Ok tt
  | XCircle r, [p] => let* _ := circle_new p r in Ok tt
  | XSphere r, [p] => let* _ := sphere_new p r in Ok tt
  | XCylinder r, [p; v] => let* _ := cylinder_new p v r in Ok tt
  | XTriangle, [a; b; c] => let* _ := triangle_new LA a b c in Ok tt
  | _, _ => Raise err_type
  end.

(** No position occurs twice. *)
Fixpoint nodupb (l : list nat) : bool :=
  match l with [] => true | x :: r => negb (existsb (Nat.eqb x) r) && nodupb r end.

(** One call.  [np1]: numpy before version 2, where np.around(..., out=self) wraps its result again,
    so that Points.round returns a copy of the rounded receiver instead of the receiver. *)
Definition step (LA : linalg N) (np1 : bool) (s : state) (o : op) : res state :=
  match o with
  | ONew1 v => Ok (alloc1 s KArray v)
  | ONew2 rows => if forallb (fun r => Nat.eqb (length r) (match rows with [] => 0 | r :: _ => length r end)) rows
                  then Ok (alloc2 s KArray rows) else Raise err_ragged
  | OPoint a => new1 s KPoint a
  | OVector a => new1 s KVector a
  | OPoints a => new2 s a
  | OComp c args =>
      let* (m, fs) := fields (cells s) (live s) args in
      let* _ := comp_check LA c (map (read m) fs) in
      Ok (MkState m (live s ++ [Comp fs]))
  | OField h k =>
      match nth_error (live s) h with
      | Some (Comp fs) => match nth_error fs k with Some addr => Ok (push s (A1 KPoint addr)) | None => Raise err_type end
      | _ => Raise err_type
      end
  | OSlice h idx =>
      match nth_error (live s) h with
      | Some (A1 k addr) =>
          if forallb (fun i => Nat.ltb i (length addr)) idx && nodupb idx
          then Ok (push s (A1 k (map (fun i => nth i addr 0) idx))) else Raise err_index
      | _ => Raise err_type
      end
  | ORow h i =>
      match nth_error (live s) h with
      | Some (A2 k rows) => match nth_error rows i with Some addr => Ok (push s (A1 KArray addr)) | None => Raise err_index end
      | _ => Raise err_type
      end
  | OSet1 h i x =>
      match nth_error (live s) h with
      | Some (A1 _ addr) => match nth_error addr i with Some a => Ok (MkState (upd (cells s) a x) (live s)) | None => Raise err_index end
      | _ => Raise err_type
      end
  | OSet2 h i j x =>
      match nth_error (live s) h with
      | Some (A2 _ rows) =>
          match nth_error rows i with
          | Some addr => match nth_error addr j with Some a => Ok (MkState (upd (cells s) a x) (live s)) | None => Raise err_index end
          | None => Raise err_index
          end
      | _ => Raise err_type
      end
  (* _base_array.py 108-125: np.around(self, decimals=decimals, out=self); the values are written into the
     receiver's own cells, and the result is the receiver *)
  | ORound h d =>
      match nth_error (live s) h with
      | Some (A1 k addr) =>
          let* v := round1 (read (cells s) addr) d in
          Ok (MkState (upds (cells s) addr v) (live s ++ [A1 k addr]))
      | Some (A2 k rows) =>
          let* rs := round2 (map (read (cells s)) rows) d in
          let m := upds (cells s) (concat rows) (concat rs) in
          if np1 then Ok (alloc2 (MkState m (live s)) k (map (read m) rows)) else Ok (MkState m (live s ++ [A2 k rows]))
      | _ => Raise err_type
      end
  (* _base_array.py 56-70: np.array(self) copies *)
  | OToArray h =>
      match nth_error (live s) h with
      | Some (A1 _ addr) => Ok (alloc1 s KArray (read (cells s) addr))
      | Some (A2 _ rows) => Ok (alloc2 s KArray (map (read (cells s)) rows))
      | _ => Raise err_type
      end
  (* _base_array.py 142-184, 204-252: np.pad returns a new array *)
  | OSetDim h d =>
      match nth_error (live s) h with
      | Some (A1 k addr) => let* v := set_dimension1 (read (cells s) addr) d in Ok (alloc1 s k v)
      | Some (A2 k rows) => let* rs := set_dimension2 (map (read (cells s)) rows) d in Ok (alloc2 s k rs)
      | _ => Raise err_type
      end
  | OQuery hs g =>
      let* rs := g (flat_map (fun h => match nth_error (live s) h with Some x => [value (cells s) x] | None => [] end) hs) in
      Ok (alloc2 s KArray rs)
  end.

(** A history: the caller goes on after an exception, which changes nothing. *)
Definition after (LA : linalg N) (np1 : bool) (s : state) (o : op) : state :=
  match step LA np1 s o with Ok s' => s' | _ => s end.
Definition run (LA : linalg N) (np1 : bool) (s : state) (os : list op) : state := fold_left (after LA np1) os s.
Definition initial : state := MkState [] [].

End Heap.
Arguments state : clear implicits.
Arguments op : clear implicits.
Arguments source : clear implicits.
