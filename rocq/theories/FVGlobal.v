(** On a uniformly refined quadtree the glued problem is the discrete problem on the
    whole rectangle. *)
From Verif Require Import Base VectorModel MatrixModel LinSpec HPSModel HPSSpec FVModel FVSpec GlobalSpec StageSpec.
From Verif Require Import MatProofs MatProofs2 LinProofs HPSProofs HPSProofs3 HPSProofs4 HPSStage2 FVProofs FVProofs2 FVProofs3 FVMax FVJoin.
From Coq Require Import Lqa.
From Coq Require Import Lia.

Fixpoint loads (lf : list Qc -> list Qc) (m l : nat) (F : list Qc) (s : qtree) : Prop :=
  match l, s with
  | 0, QLeaf _ f => lf f = F
  | S l', QNode a b c d =>
      let n := m * 2 ^ l' in
      loads lf m l' (block n F false false) a /\ loads lf m l' (block n F true false) b /\
      loads lf m l' (block n F false true) c /\ loads lf m l' (block n F true true) d
  | _, _ => False
  end.

Lemma uniform_level m l : forall G s, uniform m l G s -> level s = l.
Proof.
  induction l as [|l IH]; intros G [G' f|a b c d]; cbn [uniform]; try contradiction; [reflexivity|].
  intros (A & B & C & D). cbn [level]. rewrite (IH _ _ A), (IH _ _ B), (IH _ _ C), (IH _ _ D). lia.
Qed.
Lemma uniform_equal m l : forall G s, uniform m l G s -> equal_levels s.
Proof.
  induction l as [|l IH]; intros G [G' f|a b c d]; cbn [uniform]; try contradiction; [reflexivity|].
  intros (A & B & C & D). cbn [equal_levels].
  rewrite (uniform_level _ _ _ _ A), (uniform_level _ _ _ _ B), (uniform_level _ _ _ _ C), (uniform_level _ _ _ _ D).
  repeat split; eauto.
Qed.
Lemma scatter_length m l : forall u, length (scatter m l u) = 4 ^ l.
Proof. induction l as [|l IH]; intros u; [reflexivity|]. cbn [scatter Nat.pow]. rewrite !app_length, !IH. lia. Qed.
Lemma loads_length m l : forall G s, uniform m l G s -> length (leaf_loads s) = 4 ^ l.
Proof.
  induction l as [|l IH]; intros G [G' f|a b c d]; cbn [uniform]; try contradiction; [reflexivity|].
  intros (A & B & C & D). cbn [leaf_loads Nat.pow]. rewrite !app_length, (IH _ _ A), (IH _ _ B), (IH _ _ C), (IH _ _ D). lia.
Qed.
Lemma app_split {A} (a b x y : list A) : length a = length x -> a ++ b = x ++ y -> a = x /\ b = y.
Proof.
  revert x. induction a as [|h a IH]; intros [|k x] L E; try discriminate L; [auto|].
  cbn [app] in E. inversion E. subst. destruct (IH x) as (-> & ->); auto.
Qed.
Lemma loads_id m l : forall G s F, uniform m l G s -> leaf_loads s = scatter m l F -> loads (fun f => f) m l F s.
Proof.
  induction l as [|l IH]; intros G [G' f|a b c d] F; cbn [uniform]; try contradiction.
  - intros _ E. cbn [leaf_loads scatter loads] in *. congruence.
  - intros (A & B & C & D) E. cbn [leaf_loads scatter loads] in *.
    apply app_split in E as (E1 & E); [|rewrite scatter_length; eapply loads_length; eauto].
    apply app_split in E as (E2 & E); [|rewrite scatter_length; eapply loads_length; eauto].
    apply app_split in E as (E3 & E); [|rewrite scatter_length; eapply loads_length; eauto].
    repeat split; eauto.
Qed.
Lemma block_zeros n e t : block n (zeros (2 * n * (2 * n))) e t = zeros (n * n).
Proof.
  apply zeros_eq; [unfold block; rewrite map_length, seq_length; reflexivity|]. intros i Hi.
  unfold block. rewrite map_seq_vec, vval_vec_of by auto. apply vval_zeros.
Qed.
Lemma loads_zero m l : forall G s, uniform m l G s -> loads (fun _ => zeros (m * m)) m l (zeros (m * 2 ^ l * (m * 2 ^ l))) s.
Proof.
  induction l as [|l IH]; intros G [G' f|a b c d]; cbn [uniform]; try contradiction.
  - intros _. cbn [loads Nat.pow]. f_equal. lia.
  - intros (A & B & C & D). cbn [loads]. replace (m * 2 ^ S l) with (2 * (m * 2 ^ l)) by (cbn [Nat.pow]; lia).
    rewrite !block_zeros. repeat split; eauto.
Qed.

Lemma orp G : oriented G -> proper G.
Proof. intros (A & B & C). split; [|split; [|exact C]]; intros E; [rewrite E in A; exact (Qlt_irrefl _ A)|rewrite E in B; exact (Qlt_irrefl _ B)]. Qed.
Lemma half_between a b : (a < b)%Qc -> (a < (a + b) / (1 + 1))%Qc /\ ((a + b) / (1 + 1) < b)%Qc.
Proof.
  intros H. assert (E : (((a + b) / (1 + 1)) + ((a + b) / (1 + 1)) = a + b)%Qc) by (field; exact two_nz).
  apply (f_equal this) in E. assert (E' : (this ((a + b) / (1 + 1)) + this ((a + b) / (1 + 1)) == this a + this b)%Q).
  { rewrite <- !this_plus, E. reflexivity. }
  unfold Qclt in *. split; lra.
Qed.
Lemma quarter_oriented n G : n <> 0 -> gnx G = 2 * n -> gny G = 2 * n -> forall e t, oriented G -> oriented (quarter n G e t).
Proof.
  intros Hn _ _ e t (A & B & _). apply half_between in A, B. unfold oriented, quarter. cbn [gxl gxu gyl gyu gnx gny].
  destruct e, t; tauto.
Qed.

Section Glue.
Context (m : nat) (Hm : m <> 0) (c : coefs) (L : leaf_relation) (lf : list Qc -> list Qc).
Context (HL : forall G f g u h, oriented G -> gnx G = m -> gny G = m -> length (lf f) = m * m -> length g = 4 * m -> L G f g u h ->
  exists u', fv_solution c G g (lf f) u' /\ h = boundary_flux G g u').

Lemma pow_nz l : m * 2 ^ l <> 0.
Proof. pose proof (pow_pos l). nia. Qed.

Lemma block_length n u e t : length (block n u e t) = n * n.
Proof. unfold block. rewrite map_length, seq_length. reflexivity. Qed.

Lemma glued_node l G a b c' d g h F z Ua Ub Uc Ud :
  gnx G = m * 2 ^ S l -> gny G = m * 2 ^ S l -> oriented G ->
  uniform m (S l) G (QNode a b c' d) ->
  (forall G s F g h U, gnx G = m * 2 ^ l -> gny G = m * 2 ^ l -> oriented G -> uniform m l G s -> loads lf m l F s ->
     length F = m * 2 ^ l * (m * 2 ^ l) -> glued m L s g h U ->
     exists u, fv_solution c G g F u /\ h = boundary_flux G g u) ->
  loads lf m (S l) F (QNode a b c' d) ->
  glued m L (QNode a b c' d) g h (SNode z Ua Ub Uc Ud) ->
  let n := m * 2 ^ l in
  exists u, all4 (fun v => length v = n * n) u /\ length z = 4 * n /\ length g = 8 * n /\
    fv_solution c (quarter n G false false) (fa (children_data n g z)) (block n F false false) (fa u) /\
    fv_solution c (quarter n G true false) (fb (children_data n g z)) (block n F true false) (fb u) /\
    fv_solution c (quarter n G false true) (fc (children_data n g z)) (block n F false true) (fc u) /\
    fv_solution c (quarter n G true true) (fd (children_data n g z)) (block n F true true) (fd u) /\
    let H := Four (boundary_flux (quarter n G false false) (fa (children_data n g z)) (fa u))
                  (boundary_flux (quarter n G true false) (fb (children_data n g z)) (fb u))
                  (boundary_flux (quarter n G false true) (fc (children_data n g z)) (fc u))
                  (boundary_flux (quarter n G true true) (fd (children_data n g z)) (fd u)) in
    continuous n H /\ h = outer_flux n H.
Proof.
  intros Ex Ey HP (A & B & C & D) IH (FA & FB & FC & FD) HG n.
  assert (En : m * 2 ^ S l = 2 * n) by (unfold n; cbn [Nat.pow]; lia). rewrite En in Ex, Ey.
  cbn [glued] in HG.
  replace (min_level a b c' d) with l in HG.
  2:{ unfold min_level. rewrite (uniform_level _ _ _ _ A), (uniform_level _ _ _ _ B), (uniform_level _ _ _ _ C), (uniform_level _ _ _ _ D). lia. }
  rewrite (uniform_level _ _ _ _ A), (uniform_level _ _ _ _ B), (uniform_level _ _ _ _ C), (uniform_level _ _ _ _ D), Nat.sub_diag in HG.
  cbn [refine_by coarsen_by] in HG. fold n in HG. destruct HG as (Lg & Lz & H & Ga & Gb & Gc & Gd & Hc & Hh).
  pose proof (pow_nz l) as Nn. fold n in Nn.
  assert (QP := fun e t => quarter_oriented n G Nn Ex Ey e t HP).
  assert (BL := block_length n F).
  destruct (IH (quarter n G false false) _ _ _ _ _ eq_refl eq_refl (QP _ _) A FA (BL _ _) Ga) as (ua & Sa & Fa).
  destruct (IH (quarter n G true false) _ _ _ _ _ eq_refl eq_refl (QP _ _) B FB (BL _ _) Gb) as (ub & Sb & Fb).
  destruct (IH (quarter n G false true) _ _ _ _ _ eq_refl eq_refl (QP _ _) C FC (BL _ _) Gc) as (uc & Sc & Fc).
  destruct (IH (quarter n G true true) _ _ _ _ _ eq_refl eq_refl (QP _ _) D FD (BL _ _) Gd) as (ud & Sd & Fd).
  exists (Four ua ub uc ud). cbn [fa fb fc fd].
  split; [split4; cbn [fa fb fc fd]; [apply Sa|apply Sb|apply Sc|apply Sd]|].
  split; [exact Lz|]. split; [exact Lg|]. split; [exact Sa|]. split; [exact Sb|]. split; [exact Sc|]. split; [exact Sd|].
  cbv zeta. destruct H as [Ha Hb Hc' Hd]. cbn [fa fb fc fd] in *. subst Ha Hb Hc' Hd. auto.
Qed.

Theorem glued_flux l : forall G s F g h U,
  gnx G = m * 2 ^ l -> gny G = m * 2 ^ l -> oriented G -> uniform m l G s -> loads lf m l F s ->
  length F = m * 2 ^ l * (m * 2 ^ l) -> glued m L s g h U ->
  exists u, fv_solution c G g F u /\ h = boundary_flux G g u.
Proof.
  induction l as [|l IH]; intros G s F g h U Ex Ey HP HU HF LF HG.
  - destruct s as [G' f|]; [|contradiction]. cbn [uniform] in HU. subst G'. cbn [loads] in HF.
    destruct U as [g' u|]; [|contradiction]. cbn [glued] in HG. destruct HG as (-> & Lg & HLf).
    cbn [Nat.pow] in *. rewrite Nat.mul_1_r in *. rewrite <- HF. eapply HL; eauto. rewrite HF, LF. reflexivity.
  - destruct s as [|a b c' d]; [contradiction|]. destruct U as [|z Ua Ub Uc Ud]; [contradiction|].
    destruct (glued_node l G a b c' d g h F z Ua Ub Uc Ud Ex Ey HP HU IH HF HG) as (u & Lu & Lz & Lg & Sa & Sb & Sc & Sd & Hc & Hh).
    assert (En : m * 2 ^ S l = 2 * (m * 2 ^ l)) by (cbn [Nat.pow]; lia). rewrite En in Ex, Ey.
    pose proof (pow_nz l) as Nn.
    exists (joined (m * 2 ^ l) u). split.
    + exact (join_solution _ G Nn Ex Ey (orp _ HP) g z Lg Lz u Hc c F Sa Sb Sc Sd).
    + rewrite Hh. exact (join_flux _ G Nn Ex Ey g z Lg Lz u).
Qed.
End Glue.

(** The same with the solution found on the leaves. *)
Section Cells.
Context (m : nat) (Hm : m <> 0) (c : coefs) (L : leaf_relation).
Context (HL : forall G f g u h, oriented G -> gnx G = m -> gny G = m -> length f = m * m -> length g = 4 * m -> L G f g u h ->
  fv_solution c G g f u /\ h = boundary_flux G g u).

Theorem glued_cells l : forall G s F g h U,
  gnx G = m * 2 ^ l -> gny G = m * 2 ^ l -> oriented G -> uniform m l G s -> loads (fun f => f) m l F s ->
  length F = m * 2 ^ l * (m * 2 ^ l) -> glued m L s g h U ->
  exists u, fv_solution c G g F u /\ h = boundary_flux G g u /\ map snd (leaf_values U) = scatter m l u.
Proof.
  induction l as [|l IH]; intros G s F g h U Ex Ey HP HU HF LF HG.
  - destruct s as [G' f|]; [|contradiction]. cbn [uniform] in HU. subst G'. cbn [loads] in HF. subst f.
    destruct U as [g' u|]; [|contradiction]. cbn [glued] in HG. destruct HG as (-> & Lg & HLf).
    cbn [Nat.pow] in *. rewrite Nat.mul_1_r in *. destruct (HL G F g u h) as (A & B); auto.
    exists u. split; [exact A|]. split; [exact B|]. reflexivity.
  - destruct s as [|a b c' d]; [contradiction|]. destruct U as [|z Ua Ub Uc Ud]; [contradiction|].
    assert (En : m * 2 ^ S l = 2 * (m * 2 ^ l)) by (cbn [Nat.pow]; lia). rewrite En in Ex, Ey.
    destruct HU as (A & B & C & D), HF as (FA & FB & FC & FD). cbn [glued] in HG.
    replace (min_level a b c' d) with l in HG.
    2:{ unfold min_level. rewrite (uniform_level _ _ _ _ A), (uniform_level _ _ _ _ B), (uniform_level _ _ _ _ C), (uniform_level _ _ _ _ D). lia. }
    rewrite (uniform_level _ _ _ _ A), (uniform_level _ _ _ _ B), (uniform_level _ _ _ _ C), (uniform_level _ _ _ _ D), Nat.sub_diag in HG.
    cbn [refine_by coarsen_by] in HG. pose proof (pow_nz m Hm l) as Nn. set (n := m * 2 ^ l) in *.
    destruct HG as (Lg & Lz & [Ha Hb Hc Hd] & Ga & Gb & Gc & Gd & HC & Hh). cbn [fa fb fc fd] in *.
    assert (QP := fun e t => quarter_oriented n G Nn Ex Ey e t HP).
    assert (BL := block_length n F).
    destruct (IH (quarter n G false false) _ _ _ _ _ eq_refl eq_refl (QP _ _) A FA (BL _ _) Ga) as (ua & Sa & -> & Va).
    destruct (IH (quarter n G true false) _ _ _ _ _ eq_refl eq_refl (QP _ _) B FB (BL _ _) Gb) as (ub & Sb & -> & Vb).
    destruct (IH (quarter n G false true) _ _ _ _ _ eq_refl eq_refl (QP _ _) C FC (BL _ _) Gc) as (uc & Sc & -> & Vc).
    destruct (IH (quarter n G true true) _ _ _ _ _ eq_refl eq_refl (QP _ _) D FD (BL _ _) Gd) as (ud & Sd & -> & Vd).
    set (u := Four ua ub uc ud).
    assert (Lu : all4 (fun v => length v = n * n) u) by (split4; [apply Sa|apply Sb|apply Sc|apply Sd]).
    exists (joined n u). split; [|split].
    + exact (join_solution n G Nn Ex Ey (orp _ HP) g z Lg Lz u HC c F Sa Sb Sc Sd).
    + rewrite Hh. exact (join_flux n G Nn Ex Ey g z Lg Lz u).
    + cbn [leaf_values scatter]. fold n. rewrite !map_app, Va, Vb, Vc, Vd.
      assert (BJ : forall e t, block n (joined n u) e t = quad u e t) by (exact (block_joined n G Nn Ex Ey g z Lg Lz u Lu)).
      rewrite !BJ. reflexivity.
Qed.
End Cells.

(** ** Well-posedness *)
Section Posed.
Context (m : nat) (Hm : m <> 0) (c : coefs) (HS : right_signs c).
Context (solve : grid -> list Qc -> list Qc -> res (list Qc)).
Context (Hsolve : forall G, oriented G -> gnx G = m -> gny G = m -> forall g f, length g = 4 * m -> length f = m * m ->
  exists u, solve G g f = Ok u /\ fv_solution c G g f u).

Lemma leaf_linear G f g u h : oriented G -> gnx G = m -> gny G = m -> length (zeros (m * m)) = m * m -> length g = 4 * m ->
  linear_leaf (solver_of solve) G f g u h -> exists u', fv_solution c G g (zeros (m * m)) u' /\ h = boundary_flux G g u'.
Proof.
  intros HP Ex Ey Lz Lg (T & ET & ->). pose proof (maximum_principle c G (orp _ HP) HS) as HU.
  assert (HSo := Hsolve G HP Ex Ey).
  cbn [solver_of sv_build] in ET. rewrite (build_ok_mat c G m (orp _ HP) Ex Ey solve HSo) in ET. apply Ok_inj in ET. subst T.
  destruct (sol_ok c G m Ex Ey solve HSo g (zeros (m * m)) Lg Lz) as (_ & S1 & _).
  exists (sol G solve g (zeros (m * m))). split; [exact S1|].
  pose proof (map_affine c G m (orp _ HP) HU Ex Ey solve HSo g (zeros (m * m)) Lg Lz) as Q.
  assert (Z0 : hmap G solve (zeros (4 * m)) (zeros (m * m)) = zeros (4 * m)).
  { assert (ZL : forall n, lin (- (1))%Qc (zeros n) (zeros n) = zeros n).
    { intros n. apply zeros_eq; [rewrite lin_length; apply zeros_length|]. intros t Ht. rewrite vval_lin by reflexivity. rewrite vval_zeros. ring. }
    pose proof (hmap_lin c G m (orp _ HP) HU Ex Ey solve HSo (- (1))%Qc (zeros (4 * m)) (zeros (4 * m)) (zeros (m * m)) (zeros (m * m))
      (zeros_length _) (zeros_length _) Lz Lz) as Q2. rewrite !ZL in Q2. rewrite Q2.
    apply zeros_eq; [rewrite lin_length; apply (hmap_length G m Ex Ey)|]. intros t Ht. rewrite vval_lin by reflexivity. ring. }
  rewrite Z0 in Q. symmetry. unfold hmap in Q. rewrite Q. apply vplus_zeros_n. apply apply_op_length.
Qed.

Lemma whole_unique l G : gnx G = m * 2 ^ l -> gny G = m * 2 ^ l -> proper G -> forall u,
  fv_solution c G (zeros (4 * (m * 2 ^ l))) (zeros (m * 2 ^ l * (m * 2 ^ l))) u -> u = zeros (m * 2 ^ l * (m * 2 ^ l)).
Proof.
  intros Ex Ey HP u Hu. pose proof (maximum_principle c G HP HS) as HU. unfold fv_unique in HU. rewrite Ex, Ey in HU. apply HU.
  replace (2 * (m * 2 ^ l) + 2 * (m * 2 ^ l)) with (4 * (m * 2 ^ l)) by lia. exact Hu.
Qed.

Lemma uniform_proper l : forall G s, gnx G = m * 2 ^ l -> gny G = m * 2 ^ l -> oriented G -> uniform m l G s ->
  forall s', subtree s' s -> exists l' G', gnx G' = m * 2 ^ l' /\ gny G' = m * 2 ^ l' /\ oriented G' /\ uniform m l' G' s'.
Proof.
  induction l as [|l IH]; intros G [G' f|a b c' d] Ex Ey HP HU s' Hs; try contradiction.
  - destruct Hs as [->|[]]. exists 0, G. auto.
  - destruct Hs as [->|Hs]; [exists (S l), G; auto|].
    assert (En : m * 2 ^ S l = 2 * (m * 2 ^ l)) by (cbn [Nat.pow]; lia). rewrite En in Ex, Ey.
    pose proof (pow_nz m Hm l) as Nn.
    assert (QP := fun e t => quarter_oriented (m * 2 ^ l) G Nn Ex Ey e t HP).
    destruct HU as (A & B & C & D). destruct Hs as [Hs|[Hs|[Hs|Hs]]].
    + exact (IH (quarter (m * 2 ^ l) G false false) _ eq_refl eq_refl (QP _ _) A _ Hs).
    + exact (IH (quarter (m * 2 ^ l) G true false) _ eq_refl eq_refl (QP _ _) B _ Hs).
    + exact (IH (quarter (m * 2 ^ l) G false true) _ eq_refl eq_refl (QP _ _) C _ Hs).
    + exact (IH (quarter (m * 2 ^ l) G true true) _ eq_refl eq_refl (QP _ _) D _ Hs).
Qed.

Lemma four_pieces n (z : list Qc) : length z = 4 * n -> (forall k, k < 4 -> forall i, i < n -> vval (piece n z k) i = 0%Qc) -> z = zeros (4 * n).
Proof.
  intros Lz H. apply zeros_eq; [exact Lz|]. intros I HI. assert (n <> 0) by lia.
  rewrite (Nat.div_mod I n) by auto. rewrite (Nat.mul_comm n). rewrite <- vval_piece by (apply Nat.mod_upper_bound; auto).
  apply H; [apply Nat.div_lt_upper_bound; lia|apply Nat.mod_upper_bound; auto].
Qed.

Theorem uniform_posed l G s : gnx G = m * 2 ^ l -> gny G = m * 2 ^ l -> oriented G -> uniform m l G s ->
  well_posed m (solver_of solve) s.
Proof.
  intros Ex Ey HP HU a b c' d Hs h z Ua Ub Uc Ud HG.
  destruct (uniform_proper l G s Ex Ey HP HU _ Hs) as (l' & G' & Ex' & Ey' & HP' & HU').
  destruct l' as [|l']; [contradiction|].
  assert (Eml : min_level a b c' d = l').
  { pose proof (uniform_level _ _ _ _ HU') as Q. cbn [level] in Q. unfold min_level. lia. }
  rewrite Eml in *. pose proof (pow_nz m Hm l') as Nn.
  destruct (glued_node m Hm c (linear_leaf (solver_of solve)) (fun _ => zeros (m * m)) l' G' a b c' d (zeros (8 * (m * 2 ^ l'))) h
    (zeros (m * 2 ^ S l' * (m * 2 ^ S l'))) z Ua Ub Uc Ud Ex' Ey' HP' HU') as (u & Lu & Lz & Lg & Sa & Sb & Sc & Sd & Hc & Hh).
  - apply glued_flux; auto. intros. eapply leaf_linear; eauto.
  - eapply loads_zero; eauto.
  - exact HG.
  - assert (En : m * 2 ^ S l' = 2 * (m * 2 ^ l')) by (cbn [Nat.pow]; lia).
    pose proof Ex' as Ex2. pose proof Ey' as Ey2. rewrite En in Ex2, Ey2.
    assert (J : fv_solution c G' (zeros (8 * (m * 2 ^ l'))) (zeros (m * 2 ^ S l' * (m * 2 ^ S l'))) (joined (m * 2 ^ l') u))
      by exact (join_solution _ G' Nn Ex2 Ey2 (orp _ HP') _ z Lg Lz u Hc c _ Sa Sb Sc Sd).
    replace (8 * (m * 2 ^ l')) with (4 * (m * 2 ^ S l')) in J by lia.
    apply (whole_unique (S l') G' Ex' Ey' (orp _ HP')) in J.
    assert (ZC : forall e t i j, i < m * 2 ^ l' -> j < m * 2 ^ l' -> cell (quarter (m * 2 ^ l') G' e t) (quad u e t) i j = 0%Qc).
    { intros e t i j Hi Hj. rewrite <- (cell_joined _ G' Nn Ex2 Ey2 _ z Lg Lz u) by auto. rewrite J. apply vval_zeros. }
    destruct (interface (m * 2 ^ l') G' Nn Ex2 Ey2 (orp _ HP') _ z Lg Lz u Hc) as (I0 & I1 & I2 & I3).
    assert (Hhalf : ((0 + 0) / (1 + 1) = 0)%Qc) by (field; exact two_nz).
    set (n := m * 2 ^ l') in *.
    apply four_pieces; [exact Lz|]. intros k Hk i Hi.
    destruct k as [|[|[|[|k]]]]; [| | | |lia].
    + rewrite <- I0 by auto. refine (eq_trans _ Hhalf). f_equal. f_equal; [apply (ZC false true)|apply (ZC false false)]; lia.
    + rewrite <- I1 by auto. refine (eq_trans _ Hhalf). f_equal. f_equal; [apply (ZC true true)|apply (ZC true false)]; lia.
    + rewrite <- I2 by auto. refine (eq_trans _ Hhalf). f_equal. f_equal; [apply (ZC true false)|apply (ZC false false)]; lia.
    + rewrite <- I3 by auto. refine (eq_trans _ Hhalf). f_equal. f_equal; [apply (ZC true true)|apply (ZC false true)]; lia.
Qed.

Lemma uniform_good l : forall G s F, gnx G = m * 2 ^ l -> gny G = m * 2 ^ l -> oriented G -> uniform m l G s ->
  loads (fun f => f) m l F s -> length F = m * 2 ^ l * (m * 2 ^ l) -> good_leaves m (solver_of solve) s.
Proof.
  induction l as [|l IH]; intros G [G' f|a b c' d] F Ex Ey HP HU HF LF; try contradiction.
  - cbn [uniform loads Nat.pow] in *. subst. rewrite Nat.mul_1_r in *. split; [|exact LF].
    apply (solver_affine c); auto; [apply orp; auto|]. apply maximum_principle; auto. apply orp; auto.
  - assert (En : m * 2 ^ S l = 2 * (m * 2 ^ l)) by (cbn [Nat.pow]; lia). rewrite En in Ex, Ey.
    pose proof (pow_nz m Hm l) as Nn.
    assert (QP := fun e t => quarter_oriented (m * 2 ^ l) G Nn Ex Ey e t HP).
    destruct HU as (A & B & C & D), HF as (FA & FB & FC & FD). cbn [good_leaves].
    split4; [eapply (IH (quarter (m * 2 ^ l) G false false) _ _ eq_refl eq_refl (QP _ _) A)|eapply (IH (quarter (m * 2 ^ l) G true false) _ _ eq_refl eq_refl (QP _ _) B)
      |eapply (IH (quarter (m * 2 ^ l) G false true) _ _ eq_refl eq_refl (QP _ _) C)|eapply (IH (quarter (m * 2 ^ l) G true true) _ _ eq_refl eq_refl (QP _ _) D)]; eauto; apply block_length.
Qed.

Lemma solver_leaf_solution G f g u h : oriented G -> gnx G = m -> gny G = m -> length f = m * m -> length g = 4 * m ->
  solver_leaf (solver_of solve) G f g u h -> fv_solution c G g f u /\ h = boundary_flux G g u.
Proof.
  intros HP Ex Ey Lf Lg (E1 & E2). cbn [solver_of sv_solve sv_map] in *.
  assert (HSo := Hsolve G HP Ex Ey).
  destruct (sol_ok c G m Ex Ey solve HSo g f Lg Lf) as (E3 & S3 & _).
  rewrite (map_ok c G m (orp _ HP) Ex Ey solve HSo g f Lg Lf) in E2. rewrite E1 in E3. apply Ok_inj in E2, E3.
  rewrite <- E3 in S3. split; [exact S3|]. rewrite <- E2. unfold hmap. rewrite <- E3. reflexivity.
Qed.
End Posed.

(** ** Functions sampled at cell centres *)
Lemma sampled_block rhs n G e t : n <> 0 -> gnx G = 2 * n -> gny G = 2 * n ->
  sampled rhs (quarter n G e t) = block n (sampled rhs G) e t.
Proof.
  intros Hn Ex Ey. unfold sampled at 1. change (gnx (quarter n G e t)) with n. change (gny (quarter n G e t)) with n.
  unfold block. apply map_ext_in. intros k Hk. apply in_seq in Hk. cbv zeta.
  assert (Hi : k / n < n) by (apply Nat.div_lt_upper_bound; lia).
  assert (Hj : k mod n < n) by (apply Nat.mod_upper_bound; auto).
  fold (off n e). fold (off n t). set (i := k / n) in *. set (j := k mod n) in *.
  assert (B : i + off n e < 2 * n /\ j + off n t < 2 * n) by (unfold off; destruct e, t; lia). destruct B as (B1 & B2).
  unfold sampled. rewrite Ex, Ey, map_seq_vec, vval_vec_of by nia.
  rewrite (Nat.div_add (j + off n t)), (Nat.mod_add (j + off n t)) by lia.
  rewrite Nat.div_small, Nat.mod_small by auto. cbn [Nat.add].
  rewrite (quarter_mx n G Hn Ex), (quarter_my n G Hn Ey). reflexivity.
Qed.
Lemma sampled_loads rhs m l : m <> 0 -> forall G s, gnx G = m * 2 ^ l -> gny G = m * 2 ^ l -> uniform m l G s ->
  (forall G' f, subtree (QLeaf G' f) s -> f = sampled rhs G') -> leaf_loads s = scatter m l (sampled rhs G).
Proof.
  intros Hm. induction l as [|l IH]; intros G [G' f|a b c' d] Ex Ey HU HF; try contradiction.
  - cbn [uniform] in HU. subst G'. cbn [leaf_loads scatter]. f_equal. apply HF. left. reflexivity.
  - assert (En : m * 2 ^ S l = 2 * (m * 2 ^ l)) by (cbn [Nat.pow]; lia). rewrite En in Ex, Ey.
    pose proof (pow_nz m Hm l) as Nn. destruct HU as (A & B & C & D). cbn [leaf_loads scatter].
    rewrite <- !(sampled_block rhs (m * 2 ^ l) G) by auto.
    rewrite (IH (quarter (m * 2 ^ l) G false false) _ eq_refl eq_refl A), (IH (quarter (m * 2 ^ l) G true false) _ eq_refl eq_refl B), (IH (quarter (m * 2 ^ l) G false true) _ eq_refl eq_refl C), (IH (quarter (m * 2 ^ l) G true true) _ eq_refl eq_refl D);
      [reflexivity|..]; intros G' f H; apply HF; cbn [subtree]; auto.
Qed.
