(** Property theorems.  Proofs are in HPSProps.v; this file only restates the
    statements.  Written by tools/gen_thm.py. *)
From Verif Require Import Base VectorModel MatrixModel LinSpec HPSModel HPSSpec.
From Verif Require Import MatProofs MatProofs2 LinProofs Gauss LinProps BlockProofs.
From Verif Require Import HPSProofs HPSProofs2 HPSProofs3 HPSProofs4 HPSTree HPSTree2 HPSCert.
From Verif Require Import HPSProps.

(** [C16] After merging four siblings of any resolutions that meet at side n, the
    interface values S g computed from any boundary data g of the parent make the
    fluxes on both sides of each of the four interfaces equal, and no other
    interface values do.  [Tc] are the children's operators at side n. *)
Theorem merge_flux_continuous : forall gesv tau ch n k Tc,
  gesv_contract gesv -> n <> 0 -> levels_ok n k -> children_ok n ch k ->
  resolved4 k n (fmap pT ch) Tc -> interface_unique n Tc ->
  exists tau' ch', merge4to1 gesv tau ch = Ok (tau', ch') /\ fmap pT ch' = Tc /\
    nr (pS tau') = 4 * n /\ nc (pS tau') = 8 * n /\
    forall g, length g = 8 * n ->
      continuous n (fluxes Tc (children_data n g (apply_op (pS tau') g))) /\
      forall z, length z = 4 * n -> continuous n (fluxes Tc (children_data n g z)) ->
        z = apply_op (pS tau') g.
Proof. exact @merge_flux_continuous_pf. Qed.
Print Assumptions merge_flux_continuous.

(** [C17] The parent's operator applied to any boundary data g returns the fluxes
    of the children on the outer boundary, for the interface values that make the
    fluxes continuous. *)
Theorem merged_operator : forall gesv tau ch n k Tc,
  gesv_contract gesv -> n <> 0 -> levels_ok n k -> children_ok n ch k ->
  resolved4 k n (fmap pT ch) Tc -> interface_unique n Tc ->
  exists tau' ch', merge4to1 gesv tau ch = Ok (tau', ch') /\ square (8 * n) (pT tau') /\
    gnx (pgrid tau') = 2 * n /\
    forall g z, length g = 8 * n -> length z = 4 * n ->
      continuous n (fluxes Tc (children_data n g z)) ->
      apply_op (pT tau') g = outer_flux n (fluxes Tc (children_data n g z)).
Proof. exact @merged_operator_pf. Qed.
Print Assumptions merged_operator.

(** The hypotheses of the two theorems above hold for four equal patches of side
    2; the merged operator is computed, here applied to data that is 1 on the
    first boundary cell. *)
Example merge_example :
  gesv_contract gauss_gesv /\ levels_ok 2 (Four 0 0 0 0) /\ children_ok 2 (ex_four 2) (Four 0 0 0 0) /\
  resolved4 (Four 0 0 0 0) 2 (fmap pT (ex_four 2)) (fmap pT (ex_four 2)) /\
  interface_unique 2 (fmap pT (ex_four 2)) /\
  match merge4to1 gauss_gesv ex_tau (ex_four 2) with
  | Ok (t, _) => firstn 4 (apply_op (pT t) (basis 16 0))
  | _ => [] end = map Q2Qc [-268 # 35; 47 # 35; 1 # 5; 1 # 5].
Proof. exact @merge_example_expf. Qed.

(** [C18] After the upwards step on a merged family, with zero boundary data the
    interface values w make the total fluxes (operator part plus load part)
    continuous, and the parent's h collects the outer fluxes.  [tau2] and [ch2]
    carry the operators left by the merge and any load fluxes. *)
Theorem upwards_particular : forall gesv tau ch n k Tc tau' ch' tau2 ch2,
  gesv_contract gesv -> n <> 0 -> levels_ok n k -> children_ok n ch k ->
  resolved4 k n (fmap pT ch) Tc -> interface_unique n Tc ->
  merge4to1 gesv tau ch = Ok (tau', ch') ->
  pH tau2 = pH tau' -> fmap pT ch2 = fmap pT ch' -> fmap pnc ch2 = fmap pnc ch' ->
  fmap pgrid ch2 = fmap pgrid ch' ->
  all4 (fun p => length (ph p) = 4 * gnx (pgrid p)) ch2 ->
  let hc := Four (coarsen_by (fa k) n (ph (fa ch2))) (coarsen_by (fb k) n (ph (fb ch2)))
                 (coarsen_by (fc k) n (ph (fc ch2))) (coarsen_by (fd k) n (ph (fd ch2))) in
  exists tau3 ch3, upwards4to1 gesv false tau2 ch2 = Ok (tau3, ch3) /\
    length (pw tau3) = 4 * n /\
    continuous n (total_fluxes Tc hc (children_data n (zeros (8 * n)) (pw tau3))) /\
    ph tau3 = outer_flux n (total_fluxes Tc hc (children_data n (zeros (8 * n)) (pw tau3))) /\
    fmap ph ch3 = hc /\ fmap pT ch3 = Tc /\ pT tau3 = pT tau2 /\ pS tau3 = pS tau2.
Proof. exact @upwards_particular_pf. Qed.
Print Assumptions upwards_particular.

Example upwards_example :
  match merge4to1 gauss_gesv ex_tau (ex_four 2) with
  | Ok (t, ch) => all4 (fun p => length (ph p) = 4 * gnx (pgrid p)) ch /\
      match upwards4to1 gauss_gesv false t ch with
      | Ok (t3, _) => map this (firstn 3 (pw t3)) = [199 # 105; 269 # 105; 109 # 105] /\
                      length (ph t3) = 16
      | _ => False
      end
  | _ => False end.
Proof. exact @upwards_example_expf. Qed.

(** [C19] When a parent is split, every child's outer boundary data is the
    matching piece of the parent's data (first interpolated to the resolution at
    which the children meet, if the parent was coarsened), and the two children
    sharing an interface receive the same values on it. *)
Theorem downward_data : forall hom tau ch n k c,
  n <> 0 -> psize (fa ch) = n -> well_formed (pS tau) -> nr (pS tau) = 4 * n -> nc (pS tau) = 8 * n ->
  (hom = false -> length (pw tau) = 4 * n) ->
  pnc tau = k -> gnx (pgrid tau) = c * 2 ^ k -> c * 2 ^ k = 2 * n -> k = 0 \/ 3 <= c ->
  length (pg tau) = 4 * c ->
  exists tau' a b cc d, split1to4 hom tau ch = Ok (tau', Four a b cc d) /\
    let g := refine_by k c (pg tau) in
    pg tau' = g /\ all4 (fun p => length (pg p) = 4 * n) (Four a b cc d) /\
    (piece n (pg a) 0 = piece n g 0 /\ piece n (pg cc) 0 = piece n g 1) /\
    (piece n (pg b) 1 = piece n g 2 /\ piece n (pg d) 1 = piece n g 3) /\
    (piece n (pg a) 2 = piece n g 4 /\ piece n (pg b) 2 = piece n g 5) /\
    (piece n (pg cc) 3 = piece n g 6 /\ piece n (pg d) 3 = piece n g 7) /\
    piece n (pg a) 3 = piece n (pg cc) 2 /\ piece n (pg b) 3 = piece n (pg d) 2 /\
    piece n (pg a) 1 = piece n (pg b) 0 /\ piece n (pg cc) 1 = piece n (pg d) 0.
Proof. exact @downward_data_pf. Qed.
Print Assumptions downward_data.

Example downward_example :
  match merge4to1 gauss_gesv ex_tau (ex_four 1) with
  | Ok (t, ch) =>
      psize (fa ch) = 1 /\ nr (pS t) = 4 /\ nc (pS t) = 8 /\ pnc t = 0 /\ gnx (pgrid t) = 2 /\
      match split1to4 true (set_g t (map Q2Qc [1; 2; 3; 4; 5; 6; 7; 8]%Q)) ch with
      | Ok (_, ch') => fmap (fun p => map this (pg p)) ch' =
          (Four [1; 21 # 8; 5; 21 # 8] [21 # 8; 3; 6; 27 # 8] [2; 27 # 8; 21 # 8; 7] [27 # 8; 4; 27 # 8; 8])%Q
      | _ => False
      end
  | _ => False end.
Proof. exact @downward_example_expf. Qed.

(** [C20] The three stages on a freshly created tree of any shape: they succeed,
    and the leaves' boundary data and solutions are those of the only solution of
    the glued problem with the prescribed data on the domain boundary.  The flux
    through the boundary is T g + h with the root's operator and flux.
    Missing: leaf sides 1 and 2 on trees where siblings are refined differently,
    see [solver_small_leaves_refuted]. *)
Theorem solver_glued_partial : forall m sv gesv load s t st g,
  1 <= m -> gesv_contract gesv -> fresh load s t -> good_leaves m sv s -> well_posed m sv s ->
  3 <= m \/ equal_levels s -> length g = 4 * (m * 2 ^ level s) ->
  exists st1 t1 t2 t3 U h,
    buildStage sv gesv false st t = Ok (st1, t1) /\
    upwardsStage sv gesv false load t1 = Ok t2 /\
    solveStage sv false g t2 = Ok t3 /\
    glued m (solver_leaf sv) s g h U /\ computed_values t3 = leaf_values U /\
    h = vplus (apply_op (pT (data t2)) g) (ph (data t2)) /\
    forall h' U', glued m (solver_leaf sv) s g h' U' -> U' = U /\ h' = h.
Proof. exact @solver_glued_partial_pf. Qed.
Print Assumptions solver_glued_partial.

(** [C20] With one cell per leaf the build fails as soon as two neighbouring
    siblings are refined differently, although the glued problem is uniquely
    solvable: the interpolation writes outside its matrix. *)
Theorem solver_small_leaves_refuted : exists m sv gesv load s t,
  1 <= m /\ gesv_contract gesv /\ fresh load s t /\ good_leaves m sv s /\ well_posed m sv s /\
  forall st, buildStage sv gesv false st t = Throw out_of_range.
Proof. exact @solver_small_leaves_refuted_pf. Qed.
Print Assumptions solver_small_leaves_refuted.

(** [C56] The same for every leaf side the interpolation is made for (3 and more)
    on every quadtree, and for every leaf side on quadtrees without a change of
    resolution. *)
Theorem solver_glued : forall m sv gesv load s t st g,
  1 <= m -> gesv_contract gesv -> fresh load s t -> good_leaves m sv s -> well_posed m sv s ->
  3 <= m \/ equal_levels s -> length g = 4 * (m * 2 ^ level s) ->
  exists st1 t1 t2 t3 U h,
    buildStage sv gesv false st t = Ok (st1, t1) /\
    upwardsStage sv gesv false load t1 = Ok t2 /\
    solveStage sv false g t2 = Ok t3 /\
    glued m (solver_leaf sv) s g h U /\ computed_values t3 = leaf_values U /\
    h = vplus (apply_op (pT (data t2)) g) (ph (data t2)) /\
    forall h' U', glued m (solver_leaf sv) s g h' U' -> U' = U /\ h' = h.
Proof. exact @solver_glued_pf. Qed.
Print Assumptions solver_glued.

(** The hypotheses hold on an adaptive tree of seven leaves with side 3. *)
Example solver_glued_example :
  gesv_contract gauss_gesv /\ fresh (ex_load 3) (ex_tree 3) (fresh_tree (ex_tree 3)) /\
  good_leaves 3 (toy 3) (ex_tree 3) /\ well_posed 3 (toy 3) (ex_tree 3) /\ level (ex_tree 3) = 1 /\
  ~ equal_levels (ex_tree 3).
Proof. exact @solver_glued_example_expf. Qed.
