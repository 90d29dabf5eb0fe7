(** Mean, mean square and largest error over the cells of a mesh. *)
From Verif Require Import Base VectorModel MatrixModel LinSpec HPSModel HPSSpec FVModel FVSpec.

(** A cell: its area, its centre, its value. *)
Record spot : Type := Spot { s_area : Qc; s_x : Qc; s_y : Qc; s_v : Qc }.
Definition leaf_spots (z : grid * list Qc) : list spot :=
  let G := fst z in
  flat_map (fun i => map (fun j => Spot (width_x G * width_y G) (mid_x G i) (mid_y G j) (cell G (snd z) i j)) (seq 0 (gny G))) (seq 0 (gnx G)).
Definition spots (l : list (grid * list Qc)) : list spot := flat_map leaf_spots l.

Definition off (V : Qc -> Qc -> Qc) (c : spot) : Qc := (s_v c - V (s_x c) (s_y c))%Qc.
Definition size (x : Qc) : Qc := if Qclt_le_dec 0 x then x else (- x)%Qc.
Definition integral (phi : spot -> Qc) (l : list spot) : Qc := fold_right (fun c s => (s_area c * phi c + s)%Qc) 0%Qc l.
