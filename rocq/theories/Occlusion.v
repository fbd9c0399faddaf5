(** Model of the table of hidden cells of costmap_cspace/src/largemap_to_map.cpp (84-108) in exact real arithmetic (the code uses float).  The use of the table
    is [occlude] of Sensor.v. *)
From Coq Require Import Reals.
From Verif Require Import Common Sensor.

(** Conversion of a real to int. *)
Definition truncR (x : R) : Z := if Rle_dec 0 x then Int_part x else (- Int_part (- x))%Z.

Section Table.
  (** width_ *)
  Variable n : Z.
  Local Open Scope R_scope.
  (** 86-90: the corner of cell [addr] as seen from the centre of the window, and its distance. *)
  Definition rel_x (addr : Z) : R := IZR (Z.rem addr n) - IZR n / 2.
  Definition rel_y (addr : Z) : R := IZR (Z.quot addr n) - IZR n / 2.
  Definition dist (addr : Z) : R := sqrt (rel_x addr * rel_x addr + rel_y addr * rel_y addr).
  (** 91: the values of r.  The loop ends by itself within the given number of rounds (OcclusionProps.v). *)
  Fixpoint radii (rounds : nat) (r l : R) : list R :=
    match rounds with
    | O => []
    | S k => if Rlt_dec r (l - 1) then r :: radii k (r + 1 / 2) l else []
    end.
  (** 93-97: the cell that is looked through at [r]. *)
  Definition through (addr : Z) (r : R) : Z :=
    (truncR (rel_y addr * r / dist addr + IZR n / 2) * n + truncR (rel_x addr * r / dist addr + IZR n / 2))%Z.
  Definition looks_through (addr : Z) : list Z := map (through addr) (radii (Z.to_nat (2 * n)) 1 (dist addr)).
  (** 98, 101-107: occlusion_table_[addr2], sorted, without duplicates and without the cell itself. *)
  Definition occlusion_table (addr2 : Z) : list Z :=
    filter (fun addr => existsb (Z.eqb addr2) (looks_through addr) && negb (addr =? addr2)%Z) (range_excl 0 (n * n)).
End Table.
