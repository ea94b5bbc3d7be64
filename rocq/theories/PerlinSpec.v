(* What Perlin noise is, independently of how it is computed *)
From Coq Require Import ZArith QArith Qminmax List Bool.
From Verif Require Import PerlinModel.
Import ListNotations.
Local Open Scope Z_scope.

(* Position of the gradient of a vertex: first coordinate varies fastest *)
Fixpoint place (sizes vertex : list Z) : Z :=
  match sizes, vertex with
  | s :: sizes, c :: vertex => c + (s + 1) * place sizes vertex
  | _, _ => 0
  end.

(* Weight of the far side, by distance from the near side *)
Definition fade (i : interp) (t : Q) : Q :=
  match i with
  | Linear => t
  | Smooth => (3 * t ^ 2 - 2 * t ^ 3)%Q
  | Smoother => (6 * t ^ 5 - 15 * t ^ 4 + 10 * t ^ 3)%Q
  end.

(* The corners of a cube *)
Fixpoint corners (n : nat) : list (list bool) :=
  match n with
  | O => [[]]
  | S n => map (fun c => c ++ [false]) (corners n) ++ map (fun c => c ++ [true]) (corners n)
  end.

Definition Qsum (l : list Q) : Q := fold_right Qplus 0%Q l.
Definition Qprod (l : list Q) : Q := fold_right Qmult 1%Q l.

Definition corner_weight (i : interp) (ts : list Q) (c : list bool) : Q :=
  Qprod (map (fun '(t, b) => if b : bool then fade i t else (1 - fade i t)%Q) (combine ts c)).

Definition vertex (cell : list Z) (c : list bool) : list Z := map (fun '(z, b) => if b : bool then z + 1 else z) (combine cell c).
Definition from_vertex (ts : list Q) (c : list bool) : list Q := map (fun '(t, b) => if b : bool then (t - 1)%Q else t) (combine ts c).
Definition product (a b : list Q) : Q := Qsum (map (fun '(x, y) => (x * y)%Q) (combine a b)).

(* Sum, over the corners of a grid module, of the product of the gradient and the vector from the corner, weighted by closeness *)
Definition weighted_sum (i : interp) (gradient : list Z -> list Q) (cell : list Z) (ts : list Q) : Q :=
  Qsum (map (fun c => (corner_weight i ts c * product (gradient (vertex cell c)) (from_vertex ts c))%Q) (corners (length ts))).

(* Position relative to the grid, in units of grid modules, of the closest point of the grid *)
Definition in_grid (size : Z) (gauge grid_pos pos : Q) : Q := Qmax 0 (Qmin (inject_Z size) ((pos - grid_pos) / gauge)).
