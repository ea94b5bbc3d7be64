(* Independent specification of pixels of which several share a bit compound. *)
From Coq Require Import ZArith Bool List.
From Verif Require Import CInt BitMediumSpec PixelBoxModel PixelBoxSpec PixelBufSpec.
Open Scope Z_scope.

(* number of pixel slots from one row to the next when each compound has N slots *)
Definition slot_stride (aligned : bool) (N w : Z) : Z :=
  if aligned then N * ((w + N - 1) / N) else w.

(* The slot of a pixel.  Slot g is position g mod N of compound g / N. *)
Definition slot (aligned : bool) (N w x y : Z) : Z := y * slot_stride aligned N w + x.

(* the number of compounds of an image *)
Definition num_compounds (aligned : bool) (N : Z) (s : size) : Z :=
  (height s * slot_stride aligned N (width s) + N - 1) / N.

Section Compounds.
  Variable Q : Type.
  (* N slots in a compound of D words *)
  Variables N D : Z.
  Variable aligned : bool.
  (* the words from a position on hold a compound, a compound is in range, and the pixel
     at a position of a compound *)
  Variable holds : list Z -> Z -> Z -> Prop.
  Variable okc : Z -> Prop.
  Variable getq : Z -> Z -> Q.

  (* the buffer holds C compounds *)
  Definition holds_all (C : Z) (buf : list Z) (comps : Z -> Z) : Prop :=
    Z.of_nat (length buf) = C * D /\ forall k, 0 <= k < C -> okc (comps k) /\ holds buf (k * D) (comps k).

  (* the pixel in a slot *)
  Definition pixel (comps : Z -> Z) (g : Z) : Q := getq (comps (g / N)) (g mod N).

  (* The rows from y0 on of a tray of size t are put at p: their pixels are set, all other
     pixels are as before.  A compound that shares no slot with the tray is left alone. *)
  Definition tray_put (s : size) (p : pos) (t : size) (y0 : Z) (v : Z -> Z -> Q) (comps comps' : Z -> Z) : Prop :=
    (forall i j, 0 <= i < width t -> y0 <= j < height t ->
       pixel comps' (slot aligned N (width s) (px p + i) (py p + j)) = v i j) /\
    (forall g, 0 <= g < num_compounds aligned N s * N ->
       (forall i j, 0 <= i < width t -> y0 <= j < height t -> g <> slot aligned N (width s) (px p + i) (py p + j)) ->
       pixel comps' g = pixel comps g) /\
    (forall k, 0 <= k < num_compounds aligned N s ->
       (forall i j, 0 <= i < width t -> y0 <= j < height t -> k <> slot aligned N (width s) (px p + i) (py p + j) / N) ->
       comps' k = comps k).
End Compounds.
