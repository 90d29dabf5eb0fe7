(** Checking that given values solve the glued problem. *)
From Verif Require Import Base VectorModel MatrixModel LinSpec HPSModel HPSSpec FVModel FVSpec GlobalSpec StageSpec AdaptSpec SingSpec.
From Verif Require Import MatProofs MatProofs2 LinProofs Gauss LinProps HPSProofs HPSProofs3 HPSProofs4 HPSTree HPSTree2 HPSStage2 HPSProps.
From Verif Require Import FVProofs FVProofs2 FVProofs3 FVMax FVJoin FVGlobal FVFish FVProps AdaptCert AdaptProofs AdaptPlane AdaptEnd AdaptProps.
From Coq Require Import Lia.

Fixpoint same (a b : list Qc) : bool :=
  match a, b with
  | [], [] => true
  | x :: a', y :: b' => Qc_eq_bool x y && same a' b'
  | _, _ => false
  end.
Lemma same_ok a b : same a b = true -> a = b.
Proof.
  revert b. induction a as [|x a IH]; intros [|y b]; cbn [same]; try discriminate; auto.
  intros H. apply andb_prop in H. destruct H as (H1 & H2). f_equal; [apply Qc_eq_bool_correct; auto|auto].
Qed.

Definition leaf_check (c : coefs) (G : grid) (g f u : list Qc) : bool :=
  (length u =? gnx G * gny G) &&
  forallb (fun i => forallb (fun j => Qc_eq_bool (elliptic c G (ghost_of G g u) i j) (cell G f i j)) (seq 0 (gny G))) (seq 0 (gnx G)).

Lemma leaf_check_ok c G g f u : proper G -> leaf_check c G g f u = true -> fv_solution c G g f u.
Proof.
  intros HP H. apply andb_prop in H. destruct H as (H1 & H2). apply Nat.eqb_eq in H1.
  split; [exact H1|]. intros E HE i j Hi Hj.
  pose proof HP as (_ & _ & Nx & Ny).
  rewrite forallb_forall in H2. specialize (H2 i ltac:(apply in_seq; lia)). rewrite forallb_forall in H2.
  specialize (H2 j ltac:(apply in_seq; lia)). apply Qc_eq_bool_correct in H2. rewrite <- H2.
  pose proof (fv_residual c G g u E (west G g) (east G g) (south G g) (north G g) (vval f) i j HP HE) as R1.
  pose proof (fv_residual c G g u _ (west G g) (east G g) (south G g) (north G g) (vval f) i j HP (ghost_of_ok G g u Nx Ny)) as R2.
  specialize (R1 ltac:(auto) ltac:(auto) Hi Hj). specialize (R2 ltac:(auto) ltac:(auto) Hi Hj).
  rewrite R1 in R2.
  replace (elliptic c G E i j) with (elliptic c G E i j - vval f (j + i * gny G) + vval f (j + i * gny G))%Qc by ring.
  rewrite R2. ring.
Qed.

(** The flux through the boundary, if [U] solves the glued problem with data [g]. *)
Fixpoint tree_check (c : coefs) (m : nat) (s : qtree) (g : list Qc) (U : solution) : option (list Qc) :=
  match s, U with
  | QLeaf G f, SLeaf g' u =>
      if same g' g && (length g =? 4 * m) && leaf_check c G g f u then Some (boundary_flux G g u) else None
  | QNode a b c' d, SNode z Ua Ub Uc Ud =>
      let l := min_level a b c' d in
      let n := m * 2 ^ l in
      let x := children_data n g z in
      if (length g =? 8 * n) && (length z =? 4 * n) then
        match tree_check c m a (refine_by (level a - l) n (fa x)) Ua,
              tree_check c m b (refine_by (level b - l) n (fb x)) Ub,
              tree_check c m c' (refine_by (level c' - l) n (fc x)) Uc,
              tree_check c m d (refine_by (level d - l) n (fd x)) Ud with
        | Some ha, Some hb, Some hc, Some hd =>
            let h := Four (coarsen_by (level a - l) n ha) (coarsen_by (level b - l) n hb)
                          (coarsen_by (level c' - l) n hc) (coarsen_by (level d - l) n hd) in
            if same (piece n (fa h) 3) (piece n (fc h) 2) && same (piece n (fb h) 3) (piece n (fd h) 2) &&
               same (piece n (fa h) 1) (piece n (fb h) 0) && same (piece n (fc h) 1) (piece n (fd h) 0)
            then Some (outer_flux n h) else None
        | _, _, _, _ => None
        end
      else None
  | _, _ => None
  end.

Lemma tree_check_ok c m solve s : m <> 0 ->
  (forall G f, In (G, f) (leaves s) -> gnx G = m /\ gny G = m /\ proper G /\ fv_unique c G /\ length f = m * m /\
     forall g, length g = 4 * m -> exists u, solve G g f = Ok u /\ fv_solution c G g f u) ->
  forall g U h, tree_check c m s g U = Some h -> glued m (solver_leaf (solver_of solve)) s g h U.
Proof.
  intros Hm. induction s as [G f|a IHa b IHb c' IHc d IHd]; intros HL g U h H; destruct U as [g' u|z Ua Ub Uc Ud]; try discriminate H.
  - cbn [tree_check] in H.
    destruct (same g' g && (length g =? 4 * m) && leaf_check c G g f u) eqn:E; [|discriminate].
    apply andb_prop in E. destruct E as (E & E3). apply andb_prop in E. destruct E as (E1 & E2).
    apply same_ok in E1. apply Nat.eqb_eq in E2. injection H as <-. cbn [glued]. split; [auto|]. split; [auto|].
    destruct (HL G f (or_introl eq_refl)) as (Ex & Ey & HP & HU & Lf & HS).
    destruct (HS g E2) as (u' & Eu & Su). apply leaf_check_ok in E3; auto.
    assert (u' = u) as ->.
    { apply (solution_unique c G HP g f); auto; try (rewrite Ex, Ey); lia. }
    split; [exact Eu|]. cbn [solver_of sv_map]. apply (fv_map_ok G m Ex Ey); auto.
    destruct E3 as (Lu & _). rewrite Lu, Ex, Ey. reflexivity.
  - cbn [tree_check] in H. cbv zeta in H. cbn [glued]. cbv zeta.
    set (l := min_level a b c' d) in *. set (n := m * 2 ^ l) in *.
    destruct ((length g =? 8 * n) && (length z =? 4 * n)) eqn:E; [|discriminate].
    apply andb_prop in E. destruct E as (E1 & E2). apply Nat.eqb_eq in E1, E2.
    split; [exact E1|]. split; [exact E2|].
    destruct (tree_check c m a _ Ua) as [ha|] eqn:Ha; [|discriminate].
    destruct (tree_check c m b _ Ub) as [hb|] eqn:Hb; [|discriminate].
    destruct (tree_check c m c' _ Uc) as [hc|] eqn:Hc; [|discriminate].
    destruct (tree_check c m d _ Ud) as [hd|] eqn:Hd; [|discriminate].
    cbn [fa fb fc fd] in H.
    destruct (_ && _ && _ && _) eqn:E in H; [|discriminate].
    apply andb_prop in E. destruct E as (E & C4). apply andb_prop in E. destruct E as (E & C3).
    apply andb_prop in E. destruct E as (C1 & C2). apply same_ok in C1, C2, C3, C4. injection H as <-.
    exists (Four ha hb hc hd). cbn [fa fb fc fd].
    assert (IN : forall x y, In (x, y) (leaves a) \/ In (x, y) (leaves b) \/ In (x, y) (leaves c') \/ In (x, y) (leaves d) ->
       In (x, y) (leaves (QNode a b c' d))) by (intros; cbn [leaves]; rewrite !in_app_iff; tauto).
    split; [apply IHa; [intros G f HI; apply HL, IN; tauto|auto]|]. split; [apply IHb; [intros G f HI; apply HL, IN; tauto|auto]|]. split; [apply IHc; [intros G f HI; apply HL, IN; tauto|auto]|]. split; [apply IHd; [intros G f HI; apply HL, IN; tauto|auto]|].
    split; [repeat split; auto|reflexivity].
Qed.

(** With the signs of C57 the checked values solve the glued problem of the
    finite volume solver. *)
Lemma tree_check_fv m lu c G s : 2 <= m -> lu_contract lu -> right_signs c -> oriented (rect m G) -> tiled m G s ->
  forall g U h, tree_check c m s g U = Some h -> glued m (solver_leaf (fv_solver lu c)) s g h U.
Proof.
  intros Hm HL HS HO HT. apply tree_check_ok; [lia|]. intros G' f HI.
  destruct (tiled_leaf m s G ltac:(lia) HO HT G' f HI) as (O & Ex & Ey & Lf).
  split; [exact Ex|]. split; [exact Ey|]. split; [apply orp; exact O|].
  split; [apply (leaf_unique m c G s) with (f := f); auto; lia|]. split; [exact Lf|].
  intros g Lg. apply (fv_leaf_solves m lu c G s) with (f' := f); auto.
Qed.

(** Balance on one rectangle, beta varying. *)
Lemma leaf_balance_var c G n g f u : proper G -> gnx G = n -> gny G = n ->
  (forall x y, c_alpha c x y <> 0%Qc) ->
  fv_solution c G g f u -> weighted_flux c G (boundary_flux G g u) = leaf_source c G f u.
Proof.
  intros HP Ex Ey Ha (Lu & H). pose proof (proper_widths G HP) as (Wx & Wy). destruct HP as (_ & _ & Nx & Ny).
  pose proof (ghost_of_ok G g u Nx Ny) as HG. set (E := ghost_of G g u) in *. specialize (H E HG).
  destruct HG as (Hc & Hwe & Hsn). rewrite Ex, Ey in Hc, Hwe, Hsn, H.
  set (fx := fun (j i : nat) => (c_beta c (face_x G i) (mid_y G j) * ((E (Z.of_nat i) (Z.of_nat j) - E (Z.of_nat i - 1)%Z (Z.of_nat j)) / width_x G))%Qc).
  set (fy := fun (i j : nat) => (c_beta c (mid_x G i) (face_y G j) * ((E (Z.of_nat i) (Z.of_nat j) - E (Z.of_nat i) (Z.of_nat j - 1)%Z) / width_y G))%Qc).
  assert (C : forall i j, i < n -> j < n ->
    (width_x G * width_y G * ((cell G f i j - c_lambda c (mid_x G i) (mid_y G j) * cell G u i j) / c_alpha c (mid_x G i) (mid_y G j)) =
     width_y G * (fx j (S i) - fx j i) + width_x G * (fy i (S j) - fy i j))%Qc).
  { intros i j Hi Hj. specialize (H i j Hi Hj). unfold elliptic in H. cbv zeta in H.
    rewrite Hc in H by auto. rewrite <- H. unfold fx, fy.
    replace (Z.of_nat (S i)) with (Z.of_nat i + 1)%Z by lia. replace (Z.of_nat (S j)) with (Z.of_nat j + 1)%Z by lia.
    replace (Z.of_nat i + 1 - 1)%Z with (Z.of_nat i) by lia. replace (Z.of_nat j + 1 - 1)%Z with (Z.of_nat j) by lia.
    rewrite Hc by auto. field. repeat split; auto. }
  unfold leaf_source. rewrite Ex, Ey. cbv zeta.
  rewrite (sum_ext n _ (fun i => sum n (fun j => width_y G * (fx j (S i) - fx j i))%Qc + sum n (fun j => width_x G * (fy i (S j) - fy i j))%Qc)%Qc).
  2:{ intros i Hi. rewrite <- sum_plus. apply sum_ext. intros j Hj. apply C; auto. }
  rewrite sum_plus, sum_swap.
  rewrite (sum_ext n (fun j => sum n (fun i => width_y G * (fx j (S i) - fx j i))%Qc) (fun j => width_y G * (fx j n - fx j 0%nat))%Qc)
    by (intros; rewrite sum_scal_l, sum_telescope; reflexivity).
  rewrite (sum_ext n (fun i => sum n (fun j => width_x G * (fy i (S j) - fy i j))%Qc) (fun i => width_x G * (fy i n - fy i 0%nat))%Qc)
    by (intros; rewrite sum_scal_l, sum_telescope; reflexivity).
  unfold weighted_flux. rewrite Ex, Ey.
  assert (X0 : face_x G 0 = gxl G) by (unfold face_x; change (Qc_of_nat 0) with 0%Qc; ring).
  assert (Y0 : face_y G 0 = gyl G) by (unfold face_y; change (Qc_of_nat 0) with 0%Qc; ring).
  assert (Nn : n <> 0) by congruence. pose proof (n_nz' n Nn) as Qn.
  assert (X1 : face_x G n = gxu G) by (unfold face_x, width_x; rewrite Ex; field; exact Qn).
  assert (Y1 : face_y G n = gyu G) by (unfold face_y, width_y; rewrite Ey; field; exact Qn).
  pose proof (vval_flux G n Ex Ey g u) as V. f_equal; apply sum_ext; intros k Hk.
  - unfold east at 1, west at 1. rewrite !V by lia. rewrite Ey.
    destruct (Nat.ltb_spec (n + k) n), (Nat.ltb_spec (n + k) (2 * n)), (Nat.ltb_spec k n); try lia.
    replace (n + k - n) with k by lia. unfold fx. rewrite X0, X1.
    destruct (Hwe k Hk) as (Q1 & Q2). apply half_eq in Q1, Q2.
    change (Z.of_nat 0 - 1)%Z with (-1)%Z. change (Z.of_nat 0) with 0%Z. rewrite Q1, Q2.
    replace (Z.of_nat n - 1)%Z with (Z.of_nat (n - 1)) by lia. rewrite Hc by lia.
    change 0%Z with (Z.of_nat 0). rewrite Hc by lia. field. split; auto. exact two_nz.
  - unfold north at 1, south at 1. rewrite !V by lia. rewrite Ex, Ey.
    destruct (Nat.ltb_spec (2 * n + n + k) n), (Nat.ltb_spec (2 * n + n + k) (2 * n)), (Nat.ltb_spec (2 * n + n + k) (3 * n)),
      (Nat.ltb_spec (2 * n + k) n), (Nat.ltb_spec (2 * n + k) (2 * n)), (Nat.ltb_spec (2 * n + k) (3 * n)); try lia.
    replace (2 * n + n + k - 3 * n) with k by lia. replace (2 * n + k - 2 * n) with k by lia. unfold fy. rewrite Y0, Y1.
    destruct (Hsn k Hk) as (Q1 & Q2). apply half_eq in Q1, Q2.
    change (Z.of_nat 0 - 1)%Z with (-1)%Z. change (Z.of_nat 0) with 0%Z. rewrite Q1, Q2.
    replace (Z.of_nat n - 1)%Z with (Z.of_nat (n - 1)) by lia. rewrite Hc by lia.
    change 0%Z with (Z.of_nat 0). rewrite Hc by lia. field. split; auto. exact two_nz.
Qed.
