(** The discrete elliptic equation on one patch, stated without reference to how
    the patch solver assembles it. *)
From Verif Require Import Base VectorModel MatrixModel LinSpec HPSModel HPSSpec FVModel.

(** Cell widths, cell faces and cell centres of a rectangle divided into nx by ny
    cells. *)
Definition width_x (G : grid) : Qc := ((gxu G - gxl G) / Qc_of_nat (gnx G))%Qc.
Definition width_y (G : grid) : Qc := ((gyu G - gyl G) / Qc_of_nat (gny G))%Qc.
Definition face_x (G : grid) (i : nat) : Qc := (gxl G + Qc_of_nat i * width_x G)%Qc.
Definition face_y (G : grid) (j : nat) : Qc := (gyl G + Qc_of_nat j * width_y G)%Qc.
Definition mid_x (G : grid) (i : nat) : Qc := ((face_x G i + face_x G (S i)) / (1 + 1))%Qc.
Definition mid_y (G : grid) (j : nat) : Qc := ((face_y G j + face_y G (S j)) / (1 + 1))%Qc.

(** The value of a vector at the cell (i,j): columns of cells one after another. *)
Definition cell (G : grid) (u : list Qc) (i j : nat) : Qc := vval u (j + i * gny G).

(** Boundary values: west and east have ny, south and north nx entries. *)
Definition west (G : grid) (g : list Qc) (j : nat) : Qc := vval g j.
Definition east (G : grid) (g : list Qc) (j : nat) : Qc := vval g (gny G + j).
Definition south (G : grid) (g : list Qc) (i : nat) : Qc := vval g (2 * gny G + i).
Definition north (G : grid) (g : list Qc) (i : nat) : Qc := vval g (2 * gny G + gnx G + i).

(** [E] extends the cell values [u] by one layer of ghost cells: the average of a
    ghost cell and its boundary cell is the boundary value between them. *)
Definition ghosts (G : grid) (g u : list Qc) (E : Z -> Z -> Qc) : Prop :=
  let nx := Z.of_nat (gnx G) in let ny := Z.of_nat (gny G) in
  (forall i j, i < gnx G -> j < gny G -> E (Z.of_nat i) (Z.of_nat j) = cell G u i j) /\
  (forall j, j < gny G -> ((E (-1)%Z (Z.of_nat j) + E 0%Z (Z.of_nat j)) / (1 + 1) = west G g j)%Qc /\
                          ((E nx (Z.of_nat j) + E (nx - 1)%Z (Z.of_nat j)) / (1 + 1) = east G g j)%Qc) /\
  (forall i, i < gnx G -> ((E (Z.of_nat i) (-1)%Z + E (Z.of_nat i) 0%Z) / (1 + 1) = south G g i)%Qc /\
                          ((E (Z.of_nat i) ny + E (Z.of_nat i) (ny - 1)%Z) / (1 + 1) = north G g i)%Qc).

(** alpha div(beta grad u) + lambda u at the cell (i,j): differences of the fluxes
    through its four faces. *)
Definition elliptic (c : coefs) (G : grid) (E : Z -> Z -> Qc) (i j : nat) : Qc :=
  let x := mid_x G i in let y := mid_y G j in
  let I := Z.of_nat i in let J := Z.of_nat j in
  let flux_e := (c_beta c (face_x G (S i)) y * ((E (I + 1)%Z J - E I J) / width_x G))%Qc in
  let flux_w := (c_beta c (face_x G i) y * ((E I J - E (I - 1)%Z J) / width_x G))%Qc in
  let flux_n := (c_beta c x (face_y G (S j)) * ((E I (J + 1)%Z - E I J) / width_y G))%Qc in
  let flux_s := (c_beta c x (face_y G j) * ((E I J - E I (J - 1)%Z) / width_y G))%Qc in
  (c_alpha c x y * ((flux_e - flux_w) / width_x G + (flux_n - flux_s) / width_y G) + c_lambda c x y * E I J)%Qc.

(** [u] solves the discrete problem with boundary values [g] and load [f]. *)
Definition fv_solution (c : coefs) (G : grid) (g f u : list Qc) : Prop :=
  length u = gnx G * gny G /\
  forall E, ghosts G g u E ->
  forall i j, i < gnx G -> j < gny G -> elliptic c G E i j = cell G f i j.

(** The discrete problem has at most one solution. *)
Definition fv_unique (c : coefs) (G : grid) : Prop :=
  forall u, fv_solution c G (zeros (2 * gny G + 2 * gnx G)) (zeros (gnx G * gny G)) u ->
    u = zeros (gnx G * gny G).

(** A patch that is a proper rectangle. *)
Definition proper (G : grid) : Prop := gxl G <> gxu G /\ gyl G <> gyu G /\ gnx G <> 0 /\ gny G <> 0.

(** A patch whose corners are in order. *)
Definition oriented (G : grid) : Prop := (gxl G < gxu G)%Qc /\ (gyl G < gyu G)%Qc /\ gnx G <> 0 /\ gny G <> 0.

(** LU factorisation and solution in exact arithmetic: a nonsingular system is
    solved. *)
Definition lu_contract (lu : lu_t) : Prop :=
  forall A F, nonsingular A -> length F = nr A ->
    length (lu A F) = nr A /\
    forall i, i < nr A -> sum (nr A) (fun j => val A i j * vval (lu A F) j)%Qc = vval F i.

(** The flux through the boundary: one-sided differences between boundary value and
    cell value, always in the positive coordinate direction. *)
Definition boundary_flux (G : grid) (g u : list Qc) : list Qc :=
  let hx := (width_x G / (1 + 1))%Qc in let hy := (width_y G / (1 + 1))%Qc in
  map (fun j => (cell G u 0 j - west G g j) / hx)%Qc (seq 0 (gny G)) ++
  map (fun j => (east G g j - cell G u (gnx G - 1) j) / hx)%Qc (seq 0 (gny G)) ++
  map (fun i => (cell G u i 0 - south G g i) / hy)%Qc (seq 0 (gnx G)) ++
  map (fun i => (north G g i - cell G u i (gny G - 1)) / hy)%Qc (seq 0 (gnx G)).

(** HSTCRT from the FISHPACK documentation, with boundary values given on all four
    sides: F(i,j), stored by columns, enters as the right hand side of the
    five-point Helmholtz equation on the staggered grid and leaves as its solution.
    M and N have to be greater than 2; nothing is promised when the discrete
    problem is not uniquely solvable. *)
Definition helmholtz (lam : Qc) : coefs := Coefs (fun _ _ => 1%Qc) (fun _ _ => 1%Qc) (fun _ _ => lam).
Definition hst_contract (hst : hst_t) : Prop :=
  forall G lam bda bdb bdc bdd F,
    2 < gnx G -> 2 < gny G -> (gxl G < gxu G)%Qc -> (gyl G < gyu G)%Qc ->
    length bda = gny G -> length bdb = gny G -> length bdc = gnx G -> length bdd = gnx G ->
    length F = gnx G * gny G -> fv_unique (helmholtz lam) G ->
    let U := hst (gxl G) (gxu G) (gnx G) bda bdb (gyl G) (gyu G) (gny G) bdc bdd lam F in
    let by_columns v := concat (map (fun i => map (fun j => vval v (i + j * gnx G)) (seq 0 (gny G))) (seq 0 (gnx G))) in
    length U = gnx G * gny G /\
    fv_solution (helmholtz lam) G (bda ++ bdb ++ bdc ++ bdd) (by_columns F) (by_columns U).

(** Signs under which the discrete problem is solvable: the diffusion coefficient
    is positive, and lambda does not have the sign of alpha. *)
Definition right_signs (c : coefs) : Prop :=
  forall x y, c_alpha c x y <> 0%Qc /\ (0 < c_beta c x y)%Qc /\ (c_alpha c x y * c_lambda c x y <= 0)%Qc.

(** A linear function; boundary data with its values in the middle of the boundary
    faces; the load for which it solves the equation: div(beta grad u) is then the
    difference of beta across the cell times the slope. *)
Definition plane (p q r x y : Qc) : Qc := (p + q * x + r * y)%Qc.
Definition plane_data (G : grid) (p q r : Qc) (g : list Qc) : Prop :=
  (forall j, j < gny G -> west G g j = plane p q r (gxl G) (mid_y G j) /\ east G g j = plane p q r (gxu G) (mid_y G j)) /\
  (forall i, i < gnx G -> south G g i = plane p q r (mid_x G i) (gyl G) /\ north G g i = plane p q r (mid_x G i) (gyu G)).
Definition plane_load (c : coefs) (G : grid) (p q r : Qc) (f : list Qc) : Prop :=
  forall i j, i < gnx G -> j < gny G ->
    let x := mid_x G i in let y := mid_y G j in
    cell G f i j = (c_alpha c x y * ((c_beta c (face_x G (S i)) y - c_beta c (face_x G i) y) * q / width_x G
                                   + (c_beta c x (face_y G (S j)) - c_beta c x (face_y G j)) * r / width_y G)
                    + c_lambda c x y * plane p q r x y)%Qc.
