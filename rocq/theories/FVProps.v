(** Properties of the finite volume patch solver, and of the direct solver that
    uses it. *)
From Verif Require Import Base VectorModel MatrixModel LinSpec HPSModel HPSSpec StageSpec FVModel FVSpec GlobalSpec.
From Verif Require Import MatProofs MatProofs2 LinProofs Gauss LinProps BlockProofs.
From Verif Require Import HPSProofs HPSProofs2 HPSProofs3 HPSProofs4 HPSTree HPSTree2 HPSProps HPSStage2.
From Coq Require Import Lqa Lia.
From Verif Require Import FVProofs FVProofs2 FVProofs3 FVMax FVJoin FVGlobal FVFish FVRect FVEnd.

(** [C27] Row j + i*n of the assembled system applied to any cell values [u] is the
    discrete operator at the cell (i,j), with ghost cells around [u], minus the
    load. *)
Lemma five_point_system_pf : forall c G n g f,
  proper G -> gnx G = n -> gny G = n -> 2 <= n -> length g = 4 * n -> length f = n * n ->
  exists A F, fv_system c G g f = Ok (A, F) /\ square (n * n) A /\ length F = n * n /\
  forall u E i j, length u = n * n -> ghosts G g u E -> i < n -> j < n ->
    (sum (n * n) (fun J => val A (j + i * n)%nat J * vval u J) - vval F (j + i * n)%nat
     = elliptic c G E i j - cell G f i j)%Qc.
Proof.
  intros c G n g f HP Ex Ey Hn Lg Lf. eexists. eexists. split; [apply (fv_system_ok G n Ex Ey); assumption|].
  split; [pose proof (fv_matrix_square c G) as Q; rewrite Ex, Ey in Q; exact Q|].
  split; [unfold fv_rhs; rewrite vec_of_length, Ex, Ey; reflexivity|].
  intros u E i j Lu HE Hi Hj.
  pose proof (fv_residual c G g u E (vval (vec_of n (west G g))) (vval (vec_of n (east G g))) (vval (vec_of n (south G g)))
    (vval (vec_of n (north G g))) (vval f) i j HP HE) as Q.
  rewrite Ex, Ey in Q. unfold cell. rewrite Ey. apply Q; auto; intros; rewrite !vval_vec_of by auto; auto.
Qed.

(** [C27] Every extension by ghost cells exists: any cell values and boundary values
    have one. *)
Lemma ghost_cells_exist_pf : forall G g u,
  gnx G <> 0 -> gny G <> 0 -> exists E, ghosts G g u E.
Proof. intros G g u Nx Ny. exists (ghost_of G g u). apply ghost_of_ok; auto. Qed.

(** [C27] The returned solution is the solution of the discrete problem. *)
Lemma five_point_solution_pf : forall lu c G n g f,
  lu_contract lu -> proper G -> fv_unique c G -> gnx G = n -> gny G = n -> 2 <= n ->
  length g = 4 * n -> length f = n * n ->
  exists u, fv_solve lu c G g f = Ok u /\ fv_solution c G g f u /\
  forall u', fv_solution c G g f u' -> u' = u.
Proof.
  intros lu c G n g f HL HP HU Ex Ey Hn Lg Lf. destruct (fv_solve_ok G n Ex Ey lu c g f HL HP HU Hn Lg Lf) as (u & E & S).
  exists u. split; [exact E|]. split; [exact S|]. intros u' S'. eapply (solution_unique c G HP g f u' u); auto; rewrite Ex, Ey; lia.
Qed.

(** Variable coefficients on a patch that is not a square, 2 by 2 cells: the system
    and its solution. *)
Definition ex_coefs : coefs :=
  Coefs (fun x y => (1 + x * x)%Qc) (fun x y => (1 + x * x + y * y)%Qc) (fun x y => (- (1))%Qc).
Definition ex_patch : grid := Grid 2 2 0%Qc 1%Qc 0%Qc (1 + 1)%Qc.
Definition ex_g : list Qc := map Qc_of_nat [1; 2; 3; 4; 5; 6; 7; 8].
Definition ex_f : list Qc := map Qc_of_nat [1; 0; 0; 2].

Lemma ex_signs : right_signs ex_coefs.
Proof.
  intros x y.
  assert (Px : forall z : Qc, (0 < 1 + z * z)%Qc) by (intros z; unfold Qclt; rewrite this_plus, this_mult; change (this 0%Qc) with 0%Q; change (this 1%Qc) with 1%Q; nra).
  cbn [ex_coefs c_alpha c_beta c_lambda]. split; [|split].
  - intros H. specialize (Px x). rewrite H in Px. exact (Qlt_irrefl _ Px).
  - unfold Qclt. rewrite !this_plus, !this_mult. change (this 0%Qc) with 0%Q. change (this 1%Qc) with 1%Q. nra.
  - specialize (Px x). unfold Qclt, Qcle in *. rewrite this_mult. change (this (- (1))%Qc) with (-1)%Q. change (this 0%Qc) with 0%Q in *. lra.
Qed.

Lemma five_point_example_expf :
  proper ex_patch /\ lu_contract lu_gauss /\
  match fv_system ex_coefs ex_patch ex_g ex_f with
  | Ok (A, F) => map this (dat A) = [-5747 # 256; 561 # 256; 51 # 8; 0; 561 # 256; -14451 # 256; 0; 119 # 8;
                                    75 # 8; 0; -12131 # 256; 1025 # 256; 0; 175 # 8; 1025 # 256; -24931 # 256]%Q /\
                   map this F = [-2677 # 128; -16711 # 128; -7275 # 64; -5593 # 16]%Q
  | _ => False
  end.
Proof.
  split; [repeat split; try discriminate; intros H; apply (f_equal this) in H; discriminate H|].
  split; [exact lu_gauss_contract|]. vm_compute. split; reflexivity.
Qed.

(** [C28] The flux for data [g] and load [f] is buildD2N * g + particularNeumannData,
    for the five-point stencil. *)
Lemma flux_affine_pf : forall lu c G n,
  lu_contract lu -> proper G -> fv_unique c G -> gnx G = n -> gny G = n -> 2 <= n ->
  exists T, fv_build (fv_map (fv_solve lu c)) G = Ok T /\ square (4 * n) T /\
  forall f, length f = n * n ->
    exists h, fv_h (fv_map (fv_solve lu c)) G f = Ok h /\ length h = 4 * n /\
    forall g, length g = 4 * n -> fv_map (fv_solve lu c) G g f = Ok (vplus (apply_op T g) h).
Proof.
  intros lu c G n HL HP HU Ex Ey Hn.
  destruct (solver_affine c G n HP HU Ex Ey (fv_solve lu c)) as [_ _ (T & ET & ST & HT)].
  { intros g f Lg Lf. apply (fv_solve_ok G n Ex Ey); auto. }
  exists T. split; [exact ET|]. split; [exact ST|]. intros f Lf. destruct (HT f Lf) as (h & Eh & Lh & Hh).
  exists h. split; [exact Eh|]. split; [exact Lh|]. intros g Lg. apply (Hh g Lg).
Qed.

(** [C28] The same for FISHPACK, with the equation it solves. *)
Lemma flux_affine_fish_pf : forall hst c G n,
  hst_contract hst -> oriented G -> fv_unique (helmholtz (c_lambda c 0%Qc 0%Qc)) G -> gnx G = n -> gny G = n -> 3 <= n ->
  exists T, fv_build (fv_map (fish_solve hst c)) G = Ok T /\ square (4 * n) T /\
  forall f, length f = n * n ->
    exists h, fv_h (fv_map (fish_solve hst c)) G f = Ok h /\ length h = 4 * n /\
    forall g, length g = 4 * n -> fv_map (fish_solve hst c) G g f = Ok (vplus (apply_op T g) h).
Proof.
  intros hst c G n HL HO HU Ex Ey Hn. pose proof (orp _ HO) as HP. destruct HO as (Ox & Oy & _).
  destruct (solver_affine (helmholtz (c_lambda c 0%Qc 0%Qc)) G n HP HU Ex Ey (fish_solve hst c)) as [_ _ (T & ET & ST & HT)].
  { intros g f Lg Lf. apply (fish_solve_ok hst HL c G n Ex Ey Ox Oy Hn); auto. }
  exists T. split; [exact ET|]. split; [exact ST|]. intros f Lf. destruct (HT f Lf) as (h & Eh & Lh & Hh).
  exists h. split; [exact Eh|]. split; [exact Lh|]. intros g Lg. apply (Hh g Lg).
Qed.

(** The hypotheses hold for the coefficients and the patch above; the flux depends
    on data and load. *)
Lemma flux_affine_example_expf :
  lu_contract lu_gauss /\ hst_contract hst_gauss /\ oriented ex_patch /\ fv_unique ex_coefs ex_patch /\
  fv_unique (helmholtz (- (1))%Qc) ex_patch /\
  match fv_map (fv_solve lu_gauss ex_coefs) ex_patch ex_g ex_f with
  | Ok h => nth 0 (map this h) 0%Q = (1651898622767874 # 345476785802449)%Q
  | _ => False
  end.
Proof.
  assert (HP : proper ex_patch) by (repeat split; try discriminate; intros H; apply (f_equal this) in H; discriminate H).
  assert (HO : oriented ex_patch) by (repeat split; try discriminate; reflexivity).
  split; [exact lu_gauss_contract|]. split; [exact hst_gauss_contract|]. split; [exact HO|].
  assert (M : right_signs (helmholtz (- (1))%Qc)).
  { intros x y. cbn. split; [discriminate|]. split; [reflexivity|discriminate]. }
  split; [|split; [apply maximum_principle; auto|vm_compute; reflexivity]].
  apply maximum_principle; [exact HP|exact ex_signs].
Qed.

(** [C29] The flux is the one-sided difference in the positive coordinate direction
    on all four sides, whatever the patch solver. *)
Lemma flux_direction_pf : forall solve G n g f u,
  gnx G = n -> gny G = n -> n <> 0 -> length g = 4 * n -> solve G g f = Ok u -> length u = n * n ->
  fv_map solve G g f = Ok (boundary_flux G g u).
Proof. intros solve G n g f u Ex Ey Hn Lg E Lu. exact (fv_map_ok G n Ex Ey solve g f u Hn Lg E Lu). Qed.

(** [C29] A face seen from both sides: two patches [L] and [R] with the same cell
    width share the values on L's east and R's west side.  Their fluxes agree there
    exactly if the shared value is the mean of the two neighbouring cells, and then
    both are the difference of these cells over the cell width. *)
Lemma shared_face_pf : forall L R gl gr ul ur j,
  gny L = gny R -> j < gny L -> width_x L = width_x R -> width_x L <> 0%Qc -> east L gl j = west R gr j ->
  let a := cell L ul (gnx L - 1) j in let b := cell R ur 0 j in
  (vval (boundary_flux L gl ul) (gny L + j) = vval (boundary_flux R gr ur) j <-> east L gl j = ((a + b) / (1 + 1))%Qc) /\
  (east L gl j = ((a + b) / (1 + 1))%Qc -> vval (boundary_flux L gl ul) (gny L + j)%nat = ((b - a) / width_x L)%Qc).
Proof.
  intros L R gl gr ul ur j En Hj Ew W Es a b. unfold boundary_flux. cbv zeta.
  assert (E1 : forall (f : nat -> Qc) (g : nat -> Qc) n k r, k < n -> vval (map f (seq 0 n) ++ map g (seq 0 n) ++ r) (n + k) = g k).
  { intros f g' n k r Hk. unfold vval. rewrite app_nth2 by (rewrite map_length, seq_length; lia). rewrite map_length, seq_length.
    replace (n + k - n) with k by lia. rewrite app_nth1 by (rewrite map_length, seq_length; lia).
    rewrite (nth_indep _ 0%Qc (g' 0)) by (rewrite map_length, seq_length; lia). rewrite map_nth, seq_nth by lia. reflexivity. }
  assert (E0 : forall (f : nat -> Qc) n k r, k < n -> vval (map f (seq 0 n) ++ r) k = f k).
  { intros f n k r Hk. unfold vval. rewrite app_nth1 by (rewrite map_length, seq_length; lia).
    rewrite (nth_indep _ 0%Qc (f 0)) by (rewrite map_length, seq_length; lia). rewrite map_nth, seq_nth by lia. reflexivity. }
  rewrite E1 by exact Hj. rewrite E0 by lia. rewrite <- Es, <- Ew. fold a b.
  destruct (half_flux (east L gl j) a b (width_x L) W) as (A & B). split; [exact A|exact B].
Qed.

(** [C29] The same for a face between a lower and an upper patch. *)
Lemma shared_face_vertical_pf : forall L U gl gu ul uu i,
  gnx L = gnx U -> i < gnx L -> width_y L = width_y U -> width_y L <> 0%Qc -> north L gl i = south U gu i ->
  let a := cell L ul i (gny L - 1) in let b := cell U uu i 0 in
  (vval (boundary_flux L gl ul) (2 * gny L + gnx L + i) = vval (boundary_flux U gu uu) (2 * gny U + i) <->
   north L gl i = ((a + b) / (1 + 1))%Qc) /\
  (north L gl i = ((a + b) / (1 + 1))%Qc ->
   vval (boundary_flux L gl ul) (2 * gny L + gnx L + i)%nat = ((b - a) / width_y L)%Qc).
Proof.
  intros L U gl gu ul uu i En Hi Ew W Es a b. unfold boundary_flux. cbv zeta.
  assert (E3 : forall (f f1 f2 f3 : nat -> Qc) n m k, k < n ->
     vval (map f (seq 0 m) ++ map f1 (seq 0 m) ++ map f2 (seq 0 n) ++ map f3 (seq 0 n)) (2 * m + n + k) = f3 k /\
     vval (map f (seq 0 m) ++ map f1 (seq 0 m) ++ map f2 (seq 0 n) ++ map f3 (seq 0 n)) (2 * m + k) = f2 k).
  { intros f f1 f2 f3 n m k Hk. rewrite !vval_app, !map_length, !seq_length.
    destruct (Nat.ltb_spec (2 * m + n + k) m); [lia|]. destruct (Nat.ltb_spec (2 * m + n + k - m) m); [lia|].
    destruct (Nat.ltb_spec (2 * m + n + k - m - m) n); [lia|].
    destruct (Nat.ltb_spec (2 * m + k) m); [lia|]. destruct (Nat.ltb_spec (2 * m + k - m) m); [lia|].
    destruct (Nat.ltb_spec (2 * m + k - m - m) n); [|lia].
    replace (2 * m + n + k - m - m - n) with k by lia. replace (2 * m + k - m - m) with k by lia.
    rewrite !map_seq_vec, !vval_vec_of by auto. auto. }
  rewrite (proj1 (E3 _ _ _ _ _ _ _ Hi)).
  rewrite (proj2 (E3 _ _ _ _ (gnx U) (gny U) i ltac:(lia))). rewrite <- Es, <- Ew. fold a b.
  destruct (half_flux (north L gl i) a b (width_y L) W) as (A & B). split; [exact A|exact B].
Qed.

(** [C29] On a linear solution the flux is the exact derivative on all sides. *)
Lemma flux_exact_linear_pf : forall lu c G n p q r g f,
  lu_contract lu -> proper G -> fv_unique c G -> gnx G = n -> gny G = n -> 2 <= n ->
  length g = 4 * n -> length f = n * n -> plane_data G p q r g -> plane_load c G p q r f ->
  (exists u, fv_solve lu c G g f = Ok u /\ forall i j, i < n -> j < n -> cell G u i j = plane p q r (mid_x G i) (mid_y G j)) /\
  fv_map (fv_solve lu c) G g f = Ok (repeat q n ++ repeat q n ++ repeat r n ++ repeat r n).
Proof.
  intros lu c G n p q r g f HL HP HU Ex Ey Hn Lg Lf HG HF.
  destruct (fv_solve_ok G n Ex Ey lu c g f HL HP HU Hn Lg Lf) as (u & E & S).
  pose proof (plane_solution c G HP p q r g f HG HF) as S2.
  assert (Eu : u = plane_cells G p q r).
  { eapply (solution_unique c G HP g f); eauto; rewrite Ex, Ey; lia. }
  split.
  - exists u. split; [exact E|]. rewrite Eu. intros i j Hi Hj. apply plane_cell; lia.
  - destruct S as (Lu & _). rewrite Ex, Ey in Lu. rewrite (fv_map_ok G n Ex Ey _ g f u) by (auto; lia).
    rewrite Eu, (plane_flux G HP p q r g HG), Ex, Ey. reflexivity.
Qed.

(** A linear function on a patch with different cell widths and varying
    diffusion. *)
Definition lin_coefs : coefs := Coefs (fun _ _ => 1%Qc) (fun x y => (1 + x)%Qc) (fun _ _ => 0%Qc).
Definition lin_g : list Qc :=
  map (fun k => plane 1 (1 + 1) (1 + 1 + 1) (fst (side_point ex_patch (k / 2) (k mod 2))) (snd (side_point ex_patch (k / 2) (k mod 2))))%nat (seq 0 8).
Definition lin_f : list Qc := repeat (1 + 1)%Qc 4.
Lemma flux_linear_example_expf :
  proper ex_patch /\
  match fv_map (fv_solve lu_gauss lin_coefs) ex_patch lin_g lin_f with
  | Ok h => map this h = [2; 2; 2; 2; 3; 3; 3; 3]%Q
  | _ => False
  end.
Proof.
  split; [repeat split; try discriminate; intros H; apply (f_equal this) in H; discriminate H|].
  vm_compute. reflexivity.
Qed.

(** [C30] alpha = beta = 1 and constant lambda: both patch solvers return the same
    vector, the solution of the discrete problem. *)
Lemma solvers_agree_partial_pf : forall lu hst c lam G n g f,
  lu_contract lu -> hst_contract hst ->
  (forall x y, c_alpha c x y = 1%Qc /\ c_beta c x y = 1%Qc /\ c_lambda c x y = lam) ->
  oriented G -> fv_unique c G -> gnx G = n -> gny G = n -> 3 <= n -> length g = 4 * n -> length f = n * n ->
  exists u, fv_solve lu c G g f = Ok u /\ fish_solve hst c G g f = Ok u /\ fv_solution c G g f u.
Proof.
  intros lu hst c lam G n g f HL HH Hc HO HU Ex Ey Hn Lg Lf. pose proof (orp _ HO) as HP. destruct HO as (Ox & Oy & _).
  assert (El : c_lambda c 0%Qc 0%Qc = lam) by apply Hc.
  assert (Hx : forall x y, c_alpha c x y = c_alpha (helmholtz lam) x y /\ c_beta c x y = c_beta (helmholtz lam) x y /\ c_lambda c x y = c_lambda (helmholtz lam) x y) by exact Hc.
  assert (Hx' : forall x y, c_alpha (helmholtz lam) x y = c_alpha c x y /\ c_beta (helmholtz lam) x y = c_beta c x y /\ c_lambda (helmholtz lam) x y = c_lambda c x y).
  { intros x y. destruct (Hx x y) as (A & B & C). auto. }
  assert (HU' : fv_unique (helmholtz lam) G).
  { intros u Hu. apply HU. exact (solution_ext _ _ G _ _ _ Hx' Hu). }
  destruct (fv_solve_ok G n Ex Ey lu c g f HL HP HU ltac:(lia) Lg Lf) as (u & E & S).
  destruct (fish_solve_ok hst HH c G n Ex Ey Ox Oy Hn g f) as (v & E2 & S2); auto. { rewrite El. exact HU'. }
  rewrite El in S2. pose proof (solution_ext _ _ G _ _ _ Hx' S2) as S3.
  assert (v = u) by (eapply (solution_unique c G HP g f); eauto; rewrite Ex, Ey; lia). subst v.
  exists u. auto.
Qed.

(** [C30] Diffusion 2 instead of 1: the FISHPACK branch returns a vector that does not
    solve the equation, whatever routine is behind it. *)
Lemma solvers_agree_refuted_pf : exists c G g f,
  oriented G /\ gnx G = gny G /\ 3 <= gnx G /\ right_signs c /\ length g = 4 * gnx G /\ length f = gnx G * gnx G /\
  forall hst, hst_contract hst ->
    exists u, fish_solve hst c G g f = Ok u /\ ~ fv_solution c G g f u.
Proof.
  set (G := Grid 3 3 0%Qc 1%Qc 0%Qc 1%Qc).
  exists twice, G, (zeros 12), (repeat 1%Qc 9).
  assert (HO : oriented G) by (repeat split; try discriminate; reflexivity). pose proof (orp _ HO) as HP.
  split; [exact HO|]. split; [reflexivity|]. split; [cbn; lia|].
  split. { intros x y. cbn. split; [discriminate|]. split; [reflexivity|discriminate]. }
  split; [reflexivity|]. split; [reflexivity|]. intros hst HH.
  assert (HU : fv_unique (helmholtz 0) G).
  { apply maximum_principle; auto. intros x y. cbn. split; [discriminate|]. split; [reflexivity|discriminate]. }
  destruct (fish_solve_ok hst HH twice G 3 eq_refl eq_refl (proj1 HO) (proj1 (proj2 HO)) ltac:(lia) (zeros 12) (repeat 1%Qc 9)) as (u & E & S); auto.
  exists u. split; [exact E|]. intros (_ & S2). destruct S as (_ & S).
  assert (HE : ghosts G (zeros 12) u (ghost_of G (zeros 12) u)) by (apply ghost_of_ok; discriminate).
  specialize (S2 _ HE 0 0 ltac:(cbn; lia) ltac:(cbn; lia)). specialize (S _ HE 0 0 ltac:(cbn; lia) ltac:(cbn; lia)).
  rewrite twice_double in S2 by exact HP. change (c_lambda twice 0%Qc 0%Qc) with 0%Qc in S. rewrite S in S2.
  apply (f_equal this) in S2. discriminate S2.
Qed.

(** [C30] So does a lambda that is not constant: only its value at the origin counts. *)
Lemma solvers_agree_lambda_refuted_pf : exists c G g f,
  oriented G /\ gnx G = gny G /\ 3 <= gnx G /\ right_signs c /\
  (forall x y, c_alpha c x y = 1%Qc /\ c_beta c x y = 1%Qc) /\ length g = 4 * gnx G /\ length f = gnx G * gnx G /\
  forall hst, hst_contract hst ->
    exists u, fish_solve hst c G g f = Ok u /\ ~ fv_solution c G g f u.
Proof.
  set (G := Grid 3 3 1%Qc (1 + 1)%Qc 0%Qc 1%Qc).
  exists sloped, G, (zeros 12), (repeat 1%Qc 9).
  assert (HO : oriented G) by (repeat split; try discriminate; reflexivity). pose proof (orp _ HO) as HP.
  split; [exact HO|]. split; [reflexivity|]. split; [cbn; lia|].
  split. { intros x y. cbn [sloped c_alpha c_beta c_lambda]. split; [discriminate|]. split; [reflexivity|].
    unfold Qcle. rewrite this_mult, this_opp, this_mult. change (this 0%Qc) with 0%Q. change (this 1%Qc) with 1%Q. nra. }
  split; [intros x y; split; reflexivity|]. split; [reflexivity|]. split; [reflexivity|]. intros hst HH.
  assert (HU : fv_unique (helmholtz 0) G).
  { apply maximum_principle; auto. intros x y. cbn. split; [discriminate|]. split; [reflexivity|discriminate]. }
  assert (L0 : c_lambda sloped 0%Qc 0%Qc = 0%Qc) by (cbn; ring).
  destruct (fish_solve_ok hst HH sloped G 3 eq_refl eq_refl (proj1 HO) (proj1 (proj2 HO)) ltac:(lia) (zeros 12) (repeat 1%Qc 9)) as (u & E & S); [rewrite L0; exact HU|reflexivity|reflexivity|].
  exists u. split; [exact E|]. intros (_ & S2). destruct S as (_ & S). rewrite L0 in S.
  set (X := ghost_of G (zeros 12) u) in *.
  assert (HE : ghosts G (zeros 12) u X) by (apply ghost_of_ok; discriminate).
  specialize (S2 _ HE). specialize (S _ HE).
  assert (Z0 : forall i j, i < 3 -> j < 3 -> X (Z.of_nat i) (Z.of_nat j) = 0%Qc).
  { intros i j Hi Hj. specialize (S2 i j Hi Hj). specialize (S i j Hi Hj). rewrite sloped_extra, S in S2.
    assert (Q : (mid_x G i * mid_x G i * X (Z.of_nat i) (Z.of_nat j) = 0)%Qc).
    { replace (mid_x G i * mid_x G i * X (Z.of_nat i) (Z.of_nat j))%Qc with (cell G (repeat 1 9) i j - (cell G (repeat 1 9) i j - mid_x G i * mid_x G i * X (Z.of_nat i) (Z.of_nat j)))%Qc by ring.
      rewrite S2. ring. }
    apply Qcmult_integral in Q. destruct Q as [Q|Q]; [|exact Q]. exfalso.
    assert (M : mid_x G i <> 0%Qc) by (destruct i as [|[|[|i]]]; [| | |lia]; intros M; apply (f_equal this) in M; discriminate M).
    apply Qcmult_integral in Q. tauto. }
  specialize (S 1 1 ltac:(cbn; lia) ltac:(cbn; lia)). unfold elliptic in S. cbv zeta in S.
  change (Z.of_nat 1 + 1)%Z with (Z.of_nat 2) in S. change (Z.of_nat 1 - 1)%Z with (Z.of_nat 0) in S.
  rewrite !Z0 in S by lia. apply (f_equal this) in S. vm_compute in S. discriminate S.
Qed.

(** [C31] Square patches, with different cell widths in x and y, are solved; this is
    what is left of the claim. *)
Lemma rectangular_partial_pf : forall lu c G g f,
  lu_contract lu -> proper G -> fv_unique c G -> gnx G = gny G -> 2 <= gnx G ->
  length g = 2 * gny G + 2 * gnx G -> length f = gnx G * gny G ->
  exists u h, fv_solve lu c G g f = Ok u /\ fv_solution c G g f u /\
              fv_map (fv_solve lu c) G g f = Ok h /\ h = boundary_flux G g u.
Proof.
  intros lu c G g f HL HP HU Exy Hn Lg Lf.
  destruct (fv_solve_ok G (gnx G) eq_refl (eq_sym Exy) lu c g f HL HP HU Hn ltac:(lia) ltac:(rewrite Lf, Exy; reflexivity)) as (u & E & S).
  exists u, (boundary_flux G g u). split; [exact E|]. split; [exact S|]. split; [|reflexivity].
  apply (fv_map_ok G (gnx G) eq_refl (eq_sym Exy)); auto; [lia..|]. destruct S as (Lu & _). rewrite <- Exy in Lu. exact Lu.
Qed.

(** [C31] Every patch whose sides have different numbers of cells is rejected with an
    exception (more cells in x) or read past the end of the boundary data (more
    cells in y). *)
Lemma rectangular_refuted_pf : forall nx ny, 2 <= nx -> 2 <= ny -> nx <> ny ->
  exists G g f, gnx G = nx /\ gny G = ny /\ proper G /\ length g = 2 * ny + 2 * nx /\ length f = nx * ny /\
  forall lu c, fv_solve lu c G g f = (if ny <? nx then Throw out_of_range else UB).
Proof.
  intros nx ny Hx Hy Ne. set (G := Grid nx ny 0%Qc 1%Qc 0%Qc 1%Qc).
  exists G, (zeros (2 * ny + 2 * nx)), (zeros (nx * ny)).
  split; [reflexivity|]. split; [reflexivity|].
  split. { repeat split; try (intros H; apply (f_equal this) in H; discriminate H); cbn; lia. }
  split; [apply repeat_length|]. split; [apply repeat_length|]. intros lu c.
  exact (rectangular lu c G _ _ Hx Hy Ne (repeat_length _ _) (repeat_length _ _)).
Qed.

(** [C31] The same for every such patch and all data. *)
Lemma rectangular_rejected_pf : forall lu c G g f,
  2 <= gnx G -> 2 <= gny G -> gnx G <> gny G -> length g = 2 * gny G + 2 * gnx G -> length f = gnx G * gny G ->
  fv_solve lu c G g f = (if gny G <? gnx G then Throw out_of_range else UB).
Proof. exact rectangular. Qed.

(** [C57] The discrete problem on a rectangle has at most one solution when beta > 0,
    alpha does not vanish and alpha * lambda <= 0. *)
Lemma unique_by_signs_pf : forall c G, proper G -> right_signs c -> fv_unique c G.
Proof. exact maximum_principle. Qed.

(** [C57] So the five-point patch solver always finds it. *)
Lemma solvable_by_signs_pf : forall lu c G n g f,
  lu_contract lu -> proper G -> right_signs c -> gnx G = n -> gny G = n -> 2 <= n ->
  length g = 4 * n -> length f = n * n ->
  exists u, fv_solve lu c G g f = Ok u /\ fv_solution c G g f u /\ forall u', fv_solution c G g f u' -> u' = u.
Proof.
  intros lu c G n g f HL HP HS. apply five_point_solution_pf; auto. apply maximum_principle; auto.
Qed.

(** A sign condition is needed: 2 by 2 cells on the unit square, lambda = 16. *)
Lemma unique_by_signs_example_expf :
  right_signs ex_coefs /\
  exists u, fv_solution (helmholtz (Qc_of_nat 16)) (Grid 2 2 0 1 0 1)%Qc (zeros 8) (zeros 4) u /\ u <> zeros 4.
Proof.
  split; [exact ex_signs|]. set (G := (Grid 2 2 0 1 0 1)%Qc). exists (repeat 1%Qc 4).
  split; [|intros H; apply (f_equal (fun v => this (vval v 0))) in H; discriminate H].
  assert (HP : proper G) by (repeat split; try discriminate; intros H; apply (f_equal this) in H; discriminate H).
  apply (fv_solution_iff _ G _ _ _ (vval (zeros 2)) (vval (zeros 2)) (vval (zeros 2)) (vval (zeros 2)) HP); [reflexivity|..].
  - intros j Hj. unfold west, east. rewrite !vval_zeros. auto.
  - intros j Hj. unfold south, north. rewrite !vval_zeros. auto.
  - intros I HI. cbn in HI. destruct I as [|[|[|[|I]]]]; [| | | |lia]; apply Qc_is_canon; vm_compute; reflexivity.
Qed.

(** [C58] The direct solver with the five-point patch solver on a uniformly refined
    rectangle: all stages succeed, the leaf solutions are the blocks of the one
    solution of the discrete problem on the whole rectangle, and operator and flux at
    the root are those of the whole rectangle. *)
Lemma direct_solver_exact_pf : forall m l lu c gesv rhs xl xu yl yu s t st g,
  2 <= m -> lu_contract lu -> gesv_contract gesv -> right_signs c -> (xl < xu)%Qc -> (yl < yu)%Qc ->
  let G := whole m l xl xu yl yu in
  uniform m l G s -> fresh (sampled rhs) s t -> length g = 4 * (m * 2 ^ l) ->
  exists st1 t1 t2 t3 u,
    buildStage (fv_solver lu c) gesv false st t = Ok (st1, t1) /\
    upwardsStage (fv_solver lu c) gesv false (sampled rhs) t1 = Ok t2 /\
    solveStage (fv_solver lu c) false g t2 = Ok t3 /\
    map snd (computed_values t3) = scatter m l u /\
    fv_solution c G g (sampled rhs G) u /\ (forall u', fv_solution c G g (sampled rhs G) u' -> u' = u) /\
    boundary_flux G g u = vplus (apply_op (pT (data t2)) g) (ph (data t2)).
Proof.
  intros m l lu c gesv rhs xl xu yl yu s t st g Hm HL HG HS Hx Hy G HU HF Lg.
  refine (end_to_end m ltac:(lia) c HS (fv_solve lu c) _ l gesv (sampled rhs) xl xu yl yu s t st g (sampled rhs G) HG Hx Hy HU HF _ _ Lg).
  - intros G' HO Ex Ey g' f' Lg' Lf'. apply orp in HO. apply (fv_solve_ok G' m Ex Ey); auto. apply maximum_principle; auto.
  - apply (sampled_loads rhs m l ltac:(lia) G s eq_refl eq_refl HU). intros G' f'. apply (fresh_leaves _ _ _ HF).
  - unfold sampled. rewrite map_length, seq_length. reflexivity.
Qed.

(** [C58] The same with FISHPACK, for alpha = beta = 1 and a constant lambda <= 0. *)
Lemma direct_solver_exact_fish_pf : forall m l hst c lam gesv rhs xl xu yl yu s t st g,
  3 <= m -> hst_contract hst -> gesv_contract gesv ->
  (forall x y, c_alpha c x y = 1%Qc /\ c_beta c x y = 1%Qc /\ c_lambda c x y = lam) -> (lam <= 0)%Qc -> (xl < xu)%Qc -> (yl < yu)%Qc ->
  let G := whole m l xl xu yl yu in
  uniform m l G s -> fresh (sampled rhs) s t -> length g = 4 * (m * 2 ^ l) ->
  exists st1 t1 t2 t3 u,
    buildStage (fish_solver hst c) gesv false st t = Ok (st1, t1) /\
    upwardsStage (fish_solver hst c) gesv false (sampled rhs) t1 = Ok t2 /\
    solveStage (fish_solver hst c) false g t2 = Ok t3 /\
    map snd (computed_values t3) = scatter m l u /\
    fv_solution c G g (sampled rhs G) u /\ (forall u', fv_solution c G g (sampled rhs G) u' -> u' = u) /\
    boundary_flux G g u = vplus (apply_op (pT (data t2)) g) (ph (data t2)).
Proof.
  intros m l hst c lam gesv rhs xl xu yl yu s t st g Hm HH HG Hc Hl Hx Hy G HU HF Lg.
  assert (HS : right_signs c).
  { intros x y. destruct (Hc x y) as (-> & -> & ->). split; [discriminate|]. split; [reflexivity|]. rewrite Qcmult_1_l. exact Hl. }
  refine (end_to_end m ltac:(lia) c HS (fish_solve hst c) _ l gesv (sampled rhs) xl xu yl yu s t st g (sampled rhs G) HG Hx Hy HU HF _ _ Lg).
  - intros G' HO Ex Ey g' f' Lg' Lf'.
    destruct (solvers_agree_partial_pf lu_gauss hst c lam G' m g' f') as (u & _ & E & S); auto using lu_gauss_contract.
    { apply maximum_principle; auto. apply orp. exact HO. }
    exists u. auto.
  - apply (sampled_loads rhs m l ltac:(lia) G s eq_refl eq_refl HU). intros G' f'. apply (fresh_leaves _ _ _ HF).
  - unfold sampled. rewrite map_length, seq_length. reflexivity.
Qed.

(** A tree for every depth; the other hypotheses hold for variable coefficients. *)
Fixpoint divided (rhs : Qc -> Qc -> Qc) (m l : nat) (G : grid) : qtree :=
  match l with
  | 0 => QLeaf G (sampled rhs G)
  | S l' => let n := m * 2 ^ l' in
      QNode (divided rhs m l' (quarter n G false false)) (divided rhs m l' (quarter n G true false))
            (divided rhs m l' (quarter n G false true)) (divided rhs m l' (quarter n G true true))
  end.
Lemma divided_uniform rhs m l : forall G, uniform m l G (divided rhs m l G).
Proof. induction l as [|l IH]; intros G; cbn; auto. Qed.
Lemma divided_fresh rhs m l : forall G, fresh (sampled rhs) (divided rhs m l G) (fresh_tree (divided rhs m l G)).
Proof. induction l as [|l IH]; intros G; cbn; auto. Qed.

Lemma direct_solver_exact_example_expf : forall l,
  let rhs := fun x y : Qc => (x + y)%Qc in let G := whole 2 l 0 1 0 (1 + 1)%Qc in
  lu_contract lu_gauss /\ hst_contract hst_gauss /\ gesv_contract gauss_gesv /\ right_signs ex_coefs /\
  uniform 2 l G (divided rhs 2 l G) /\ fresh (sampled rhs) (divided rhs 2 l G) (fresh_tree (divided rhs 2 l G)).
Proof.
  intros l rhs G. split; [exact lu_gauss_contract|]. split; [exact hst_gauss_contract|]. split; [exact gauss_gesv_contract|].
  split; [exact ex_signs|]. split; [apply divided_uniform|apply divided_fresh].
Qed.

(** The hypotheses of the agreement of the two solvers. *)
Lemma solvers_agree_example_expf :
  lu_contract lu_gauss /\ hst_contract hst_gauss /\ oriented (Grid 3 3 0 1 0 1)%Qc /\
  fv_unique (helmholtz (- (1))%Qc) (Grid 3 3 0 1 0 1)%Qc.
Proof.
  assert (HO : oriented (Grid 3 3 0 1 0 1)%Qc) by (repeat split; try discriminate; reflexivity).
  split; [exact lu_gauss_contract|]. split; [exact hst_gauss_contract|]. split; [exact HO|].
  apply maximum_principle; [apply orp; exact HO|]. intros x y. cbn. split; [discriminate|]. split; [reflexivity|discriminate].
Qed.
