(** Moving and enlarging the domain. *)
From Verif Require Import Base VectorModel MatrixModel LinSpec HPSModel HPSSpec FVModel FVSpec GlobalSpec StageSpec AdaptSpec ScaleSpec.
From Verif Require Import MatProofs MatProofs2 LinProofs HPSProofs HPSProofs3 HPSProofs4 HPSStage2 HPSTree HPSTree2 HPSProps.
From Verif Require Import FVProofs FVProofs2 FVProofs3 FVMax FVJoin FVGlobal FVFish AdaptProofs AdaptPlane AdaptEnd.
From Coq Require Import Lia.

(** ** The glued problem when all leaf fluxes are multiplied by a number *)
Definition mult (k : Qc) (v : list Qc) : list Qc := lin (k - 1) v v.
Lemma mult_scale k v : mult k v = vscale k v.
Proof.
  apply vval_ext; [unfold mult; rewrite lin_length; unfold vscale; rewrite map_length; reflexivity|]. intros i _.
  unfold mult. rewrite vval_lin by auto. rewrite vval_scale. ring.
Qed.
Lemma mult_length k v : length (mult k v) = length v.
Proof. apply lin_length. Qed.

Fixpoint related (R : grid -> list Qc -> grid -> list Qc -> Prop) (s s' : qtree) : Prop :=
  match s, s' with
  | QLeaf G f, QLeaf G' f' => R G f G' f'
  | QNode a b c d, QNode a' b' c' d' => related R a a' /\ related R b b' /\ related R c c' /\ related R d d'
  | _, _ => False
  end.

Lemma related_level R s : forall s', related R s s' -> level s' = level s.
Proof.
  induction s as [G f|a IHa b IHb c IHc d IHd]; intros [G' f'|a' b' c' d']; cbn [related]; try tauto.
  intros (A & B & C & D). cbn [level]. rewrite (IHa _ A), (IHb _ B), (IHc _ C), (IHd _ D). reflexivity.
Qed.
Lemma related_equal R s : forall s', related R s s' -> equal_levels s -> equal_levels s'.
Proof.
  induction s as [G f|a IHa b IHb c IHc d IHd]; intros [G' f'|a' b' c' d']; cbn [related]; try tauto.
  intros (A & B & C & D). cbn [equal_levels].
  rewrite (related_level _ _ _ A), (related_level _ _ _ B), (related_level _ _ _ C), (related_level _ _ _ D). intuition auto.
Qed.
Lemma related_flip R s : forall s', related R s s' -> related (fun G' f' G f => R G f G' f') s' s.
Proof.
  induction s as [G f|a IHa b IHb c IHc d IHd]; intros [G' f'|a' b' c' d']; cbn [related]; try tauto.
  intros (A & B & C & D). auto.
Qed.
Lemma related_sub R s : forall s' q', related R s s' -> subtree q' s' -> exists q, subtree q s /\ related R q q'.
Proof.
  induction s as [G f|a IHa b IHb c IHc d IHd]; intros [G' f'|a' b' c' d'] q'; cbn [related]; try tauto.
  - intros H [E|[]]. subst q'. exists (QLeaf G f). split; [left; reflexivity|exact H].
  - intros (A & B & C & D) [E|HS].
    + subst q'. exists (QNode a b c d). split; [left; reflexivity|]. cbn [related]. auto.
    + destruct HS as [HS|[HS|[HS|HS]]]; [destruct (IHa _ _ A HS) as (q & Q1 & Q2)|destruct (IHb _ _ B HS) as (q & Q1 & Q2)
        |destruct (IHc _ _ C HS) as (q & Q1 & Q2)|destruct (IHd _ _ D HS) as (q & Q1 & Q2)];
      exists q; (split; [right; auto|exact Q2]).
Qed.

Lemma glued_mult m (L L' : leaf_relation) R k s : forall s' g h U, related R s s' ->
  (forall G f G' f' g u h, R G f G' f' -> length g = 4 * m -> L G f g u h -> L' G' f' g u (mult k h)) ->
  glued m L s g h U -> glued m L' s' g (mult k h) U.
Proof.
  induction s as [G f|a IHa b IHb c IHc d IHd]; intros [G' f'|a' b' c' d'] g h U HR HL; cbn [related] in HR; try tauto.
  - destruct U as [g' u|]; cbn [glued]; [|tauto]. intros (E & Lg & H). split; [exact E|]. split; [exact Lg|]. eapply HL; eauto.
  - destruct HR as (Ra & Rb & Rc & Rd). destruct U as [|z Ua Ub Uc Ud]; cbn [glued]; [tauto|].
    assert (Em : min_level a' b' c' d' = min_level a b c d).
    { unfold min_level. rewrite (related_level _ _ _ Ra), (related_level _ _ _ Rb), (related_level _ _ _ Rc), (related_level _ _ _ Rd). reflexivity. }
    rewrite Em, (related_level _ _ _ Ra), (related_level _ _ _ Rb), (related_level _ _ _ Rc), (related_level _ _ _ Rd).
    intros (Lg & Lz & H & Ga & Gb & Gc & Gd & HC & Eh). split; [exact Lg|]. split; [exact Lz|].
    exists (lin4 (k - 1) H H). cbn [lin4 fa fb fc fd].
    split; [exact (IHa _ _ _ _ Ra HL Ga)|]. split; [exact (IHb _ _ _ _ Rb HL Gb)|].
    split; [exact (IHc _ _ _ _ Rc HL Gc)|]. split; [exact (IHd _ _ _ _ Rd HL Gd)|].
    rewrite !coarsen_by_lin by reflexivity.
    match goal with |- continuous ?n ?x /\ _ => set (y := x) end.
    match type of HC with continuous ?n ?x => set (x0 := x) in *; change y with (lin4 (k - 1) x0 x0) end.
    assert (LL : len4 x0 x0) by (repeat split; reflexivity).
    split; [apply continuous_lin; auto|]. rewrite outer_flux_lin by auto. rewrite Eh. reflexivity.
Qed.

(** ** A leaf of a moved domain *)
Section Moved.
Context (k s X Y : Qc) (c c' : coefs) (G : grid).
Context (Hk : k <> 0%Qc) (Hs : (0 < s)%Qc) (HC : moved_coefs k s X Y c c') (HO : oriented G).
Notation G' := (moved_grid s X Y G).

Lemma s_nz : s <> 0%Qc.
Proof. intros E. rewrite E in Hs. exact (Qclt_not_eq _ _ Hs eq_refl). Qed.
Lemma moved_width_x : width_x G' = (s * width_x G)%Qc.
Proof. unfold width_x, moved_grid. cbn [gnx gxu gxl]. unfold Qcdiv. ring. Qed.
Lemma moved_width_y : width_y G' = (s * width_y G)%Qc.
Proof. unfold width_y, moved_grid. cbn [gny gyu gyl]. unfold Qcdiv. ring. Qed.
Lemma moved_face_x i : face_x G' i = (X + s * face_x G i)%Qc.
Proof. unfold face_x. rewrite moved_width_x. cbn [moved_grid gxl]. ring. Qed.
Lemma moved_face_y i : face_y G' i = (Y + s * face_y G i)%Qc.
Proof. unfold face_y. rewrite moved_width_y. cbn [moved_grid gyl]. ring. Qed.
Lemma moved_mid_x i : mid_x G' i = (X + s * mid_x G i)%Qc.
Proof. unfold mid_x. rewrite !moved_face_x. field. discriminate. Qed.
Lemma moved_mid_y i : mid_y G' i = (Y + s * mid_y G i)%Qc.
Proof. unfold mid_y. rewrite !moved_face_y. field. discriminate. Qed.

Lemma moved_elliptic E i j : elliptic c' G' E i j = (k * elliptic c G E i j)%Qc.
Proof.
  destruct (proper_widths G (orp _ HO)) as (Wx & Wy). pose proof s_nz as Ns.
  unfold elliptic. cbv zeta. rewrite !moved_face_x, !moved_face_y, !moved_mid_x, !moved_mid_y, moved_width_x, moved_width_y.
  destruct (HC (mid_x G i) (mid_y G j)) as (-> & _ & ->).
  rewrite !(proj1 (proj2 (HC _ _))). field. auto.
Qed.
Lemma moved_ghosts g u E : ghosts G' g u E <-> ghosts G g u E.
Proof. reflexivity. Qed.
Lemma moved_solution g f u : fv_solution c' G' g (vscale k f) u <-> fv_solution c G g f u.
Proof.
  unfold fv_solution. cbn [moved_grid gnx gny]. split; intros (L & H); (split; [exact L|]); intros E HE i j Hi Hj.
  - pose proof (H E HE i j Hi Hj) as Q. rewrite moved_elliptic in Q. unfold cell in Q |- *. rewrite vval_scale in Q. cbn [moved_grid gny] in Q.
    apply (f_equal (fun x => (/ k * x)%Qc)) in Q. rewrite !Qcmult_assoc in Q. rewrite (Qcmult_comm (/ k) k), Qcmult_inv_r, !Qcmult_1_l in Q by exact Hk. exact Q.
  - rewrite moved_elliptic. unfold cell. rewrite vval_scale. cbn [moved_grid gny]. f_equal. exact (H E HE i j Hi Hj).
Qed.
Lemma moved_flux n g u : gnx G = n -> gny G = n -> boundary_flux G' g u = mult (/ s) (boundary_flux G g u).
Proof.
  intros Ex Ey. destruct (proper_widths G (orp _ HO)) as (Wx & Wy). pose proof s_nz as Ns.
  pose proof (boundary_flux_length G n Ex Ey) as BL. pose proof (boundary_flux_length G' n Ex Ey) as BL'.
  apply vval_ext; [rewrite mult_length, BL, BL'; reflexivity|]. rewrite BL'. intros i Hi.
  unfold mult. rewrite vval_lin by reflexivity. rewrite (vval_flux G n Ex Ey), (vval_flux G' n Ex Ey) by exact Hi.
  rewrite moved_width_x, moved_width_y. change (cell G') with (cell G).
  change (west G') with (west G). change (east G') with (east G). change (south G') with (south G). change (north G') with (north G).
  destruct (i <? n), (i <? 2 * n), (i <? 3 * n); field; repeat split; auto; discriminate.
Qed.
Lemma moved_zeros n : vscale k (zeros n) = zeros n.
Proof. apply zeros_eq; [unfold vscale; rewrite map_length; apply zeros_length|]. intros i _. rewrite vval_scale, vval_zeros. ring. Qed.
Lemma moved_unique : fv_unique c G -> fv_unique c' G'.
Proof.
  intros HU u Hu. cbn [moved_grid gnx gny] in *. rewrite <- (moved_zeros (gnx G * gny G)) in Hu. apply moved_solution in Hu. exact (HU u Hu).
Qed.
Lemma moved_oriented : oriented G'.
Proof.
  destruct HO as (A & B & C & D). unfold oriented, moved_grid. cbn [gnx gny gxl gxu gyl gyu].
  assert (Q : forall a b x, (a < b)%Qc -> (x + s * a < x + s * b)%Qc).
  { intros a b x H. apply Qclt_minus_iff. replace (x + s * b + - (x + s * a))%Qc with (s * (b + - a))%Qc by ring.
    apply pos_mul; [exact Hs|]. apply (proj1 (Qclt_minus_iff _ _)). exact H. }
  split; [apply Q; exact A|]. split; [apply Q; exact B|]. auto.
Qed.
End Moved.

(** ** One leaf with a patch solver *)
Section Leaf.
Context (k s X Y : Qc) (c c' : coefs) (G : grid) (n : nat).
Context (Hk : k <> 0%Qc) (Hs : (0 < s)%Qc) (HC : moved_coefs k s X Y c c') (HO : oriented G).
Context (Ex : gnx G = n) (Ey : gny G = n) (HU : fv_unique c G).
Context (solve solve' : grid -> list Qc -> list Qc -> res (list Qc)).
Notation G' := (moved_grid s X Y G).
Context (HS : forall g f, length g = 4 * n -> length f = n * n -> exists u, solve G g f = Ok u /\ fv_solution c G g f u).
Context (HS' : forall g f, length g = 4 * n -> length f = n * n -> exists u, solve' G' g f = Ok u /\ fv_solution c' G' g f u).

Lemma scale_length r v : length (vscale r v) = length v.
Proof. unfold vscale. apply map_length. Qed.

Lemma leaf_sol g f : length g = 4 * n -> length f = n * n -> exists u, solve G g f = Ok u /\ solve' G' g (vscale k f) = Ok u /\
  length u = n * n /\
  fv_map solve G g f = Ok (boundary_flux G g u) /\ fv_map solve' G' g (vscale k f) = Ok (mult (/ s) (boundary_flux G g u)).
Proof.
  intros Lg Lf. destruct (HS g f Lg Lf) as (u & E & S). assert (Lf' : length (vscale k f) = n * n) by (rewrite scale_length; exact Lf).
  destruct (HS' g (vscale k f) Lg Lf') as (u' & E' & S').
  apply (moved_solution k s X Y c c' G Hk Hs HC HO) in S'.
  assert (u' = u) as ->.
  { eapply (solution_unique c G (orp _ HO) g f); eauto; rewrite Ex, Ey; lia. }
  exists u. split; [exact E|]. split; [exact E'|]. pose proof S as (Lu & _). rewrite Ex, Ey in Lu. split; [exact Lu|].
  assert (Hn : n <> 0) by (destruct HO as (_ & _ & H & _); congruence).
  split; [exact (fv_map_ok G n Ex Ey solve g f u Hn Lg E Lu)|].
  rewrite <- (moved_flux s X Y G Hs HO n g u Ex Ey). exact (fv_map_ok G' n Ex Ey solve' g (vscale k f) u Hn Lg E' Lu).
Qed.

Lemma leaf_mult f g u h : length g = 4 * n -> length f = n * n -> solver_leaf (solver_of solve) G f g u h ->
  solver_leaf (solver_of solve') G' (vscale k f) g u (mult (/ s) h).
Proof.
  intros Lg Lf (E1 & E2). cbn [solver_of sv_solve sv_map] in *. destruct (leaf_sol g f Lg Lf) as (u0 & A & B & _ & C & D).
  rewrite E1 in A. apply Ok_inj in A. subst u0. rewrite E2 in C. apply Ok_inj in C. subst h. split; cbn [solver_of sv_solve sv_map]; auto.
Qed.

Lemma leaf_build : exists T T', fv_build (fv_map solve) G = Ok T /\ fv_build (fv_map solve') G' = Ok T' /\
  square (4 * n) T /\ square (4 * n) T' /\ scaled_matrix (/ s) T T'.
Proof.
  pose proof (build_ok_mat c G n (orp _ HO) Ex Ey solve HS) as B.
  pose proof (build_ok_mat c' G' n (orp _ (moved_oriented s X Y G Hs HO)) Ex Ey solve' HS') as B'.
  eexists. eexists. split; [exact B|]. split; [exact B'|]. split; [split; [apply mat_of_wf|split; reflexivity]|].
  split; [split; [apply mat_of_wf|split; reflexivity]|]. split; [reflexivity|]. split; [reflexivity|].
  change (nr (Tmat G n solve)) with (4 * n). change (nc (Tmat G n solve)) with (4 * n).
  intros i j Hi Hj. unfold Tmat. rewrite !val_mat_of by auto. unfold hmap, sol.
  destruct (leaf_sol (unit_vec n j) (zeros (n * n))) as (u & A & A' & _); [apply vec_of_length|apply zeros_length|].
  rewrite moved_zeros in A'. rewrite A, A'. rewrite (moved_flux s X Y G Hs HO n _ u Ex Ey), mult_scale, vval_scale. reflexivity.
Qed.
End Leaf.

Lemma apply_scaled r T T' g : scaled_matrix r T T' -> apply_op T' g = mult r (apply_op T g).
Proof.
  intros (R & C & V). rewrite mult_scale. apply vval_ext; [rewrite scale_length, !apply_op_length; exact R|].
  rewrite apply_op_length, R. intros i Hi. rewrite vval_scale. rewrite !apply_op_vec, !vval_vec_of by lia.
  rewrite <- sum_scal_l, C. apply sum_ext. intros j Hj. rewrite V by auto. ring.
Qed.

Lemma mult_mult a b v : mult a (mult b v) = mult (a * b) v.
Proof.
  rewrite !mult_scale. apply vval_ext; [rewrite !scale_length; reflexivity|]. intros i _. rewrite !vval_scale. ring.
Qed.
Lemma mult_1 v : mult 1 v = v.
Proof. rewrite mult_scale. apply vval_ext; [apply scale_length|]. intros i _. rewrite vval_scale. ring. Qed.

(** ** The stages *)
Section Tree.
Context (m : nat) (Hm : 1 <= m) (k s X Y : Qc) (c c' : coefs).
Context (Hk : k <> 0%Qc) (Hs : (0 < s)%Qc) (HC : moved_coefs k s X Y c c').
Context (solve solve' : grid -> list Qc -> list Qc -> res (list Qc)).
Context (G : grid) (q : qtree) (HO : oriented (rect m G)) (HT : tiled m G q).
Context (HU : forall G0, oriented G0 -> gnx G0 = m -> gny G0 = m -> fv_unique c G0).
Context (HS : forall G0 g f, oriented G0 -> gnx G0 = m -> gny G0 = m -> length g = 4 * m -> length f = m * m ->
  exists u, solve G0 g f = Ok u /\ fv_solution c G0 g f u).
Context (HS' : forall G0 g f, oriented G0 -> gnx G0 = m -> gny G0 = m -> length g = 4 * m -> length f = m * m ->
  exists u, solve' (moved_grid s X Y G0) g f = Ok u /\ fv_solution c' (moved_grid s X Y G0) g f u).

Definition moved_leaf (G0 : grid) (f : list Qc) (G1 : grid) (f1 : list Qc) : Prop :=
  oriented G0 /\ gnx G0 = m /\ gny G0 = m /\ length f = m * m /\ G1 = moved_grid s X Y G0 /\ f1 = vscale k f.

Lemma moved_related : related moved_leaf q (moved_tree k s X Y q).
Proof.
  pose proof (tiled_leaf m q G ltac:(lia) HO HT) as TL. clear HO HT. induction q as [G0 f0|a IHa b IHb d IHd e IHe].
  - cbn [moved_tree related]. destruct (TL G0 f0 (or_introl eq_refl)) as (O & Ex & Ey & L). repeat split; auto; apply O.
  - cbn [moved_tree related leaves] in *. split; [apply IHa|split; [apply IHb|split; [apply IHd|apply IHe]]];
      intros; apply TL; rewrite !in_app_iff; auto.
Qed.

Lemma good_related s0 : forall s1, related moved_leaf s0 s1 -> good_leaves m (solver_of solve) s0 /\ good_leaves m (solver_of solve') s1.
Proof.
  induction s0 as [G0 f0|a IHa b IHb d IHd e IHe]; intros [G1 f1|a1 b1 d1 e1]; cbn [related]; try tauto.
  - intros (O & Ex & Ey & L & -> & ->). cbn [good_leaves]. split.
    + split; [|exact L]. apply (solver_affine c); auto. apply orp. exact O.
    + split; [|rewrite scale_length; exact L]. apply (solver_affine c'); auto.
      * apply orp. apply moved_oriented; auto.
      * apply (moved_unique k s X Y c c'); auto.
  - intros (A & B & D & E). cbn [good_leaves].
    destruct (IHa _ A), (IHb _ B), (IHd _ D), (IHe _ E). repeat split; auto.
Qed.

Lemma moved_posed : well_posed m (solver_of solve) q -> well_posed m (solver_of solve') (moved_tree k s X Y q).
Proof.
  intros HW a b d e HSub h z Ua Ub Uc Ud Gl.
  destruct (related_sub _ _ _ _ moved_related HSub) as (q0 & S0 & R0).
  destruct q0 as [|a0 b0 d0 e0]; [destruct R0|]. pose proof R0 as (Ra & Rb & Rd & Re).
  assert (Em : min_level a b d e = min_level a0 b0 d0 e0).
  { unfold min_level. rewrite (related_level _ _ _ Ra), (related_level _ _ _ Rb), (related_level _ _ _ Rd), (related_level _ _ _ Re). reflexivity. }
  rewrite Em in *.
  apply (HW a0 b0 d0 e0 S0 (mult s h) z Ua Ub Uc Ud).
  eapply (glued_mult m (linear_leaf (solver_of solve')) _ _ s _ _ _ _ _ (related_flip _ _ _ R0)); [|exact Gl].
  intros G1 f1 G0 f0 g0 u0 h0 (O & Ex & Ey & L & -> & ->) Lg (T' & ET' & ->).
  destruct (leaf_build k s X Y c c' G0 m Hk Hs HC O Ex Ey (HU G0 O Ex Ey) solve solve') as (T & T1 & B & B1 & _ & _ & SM); auto.
  cbn [solver_of sv_build] in ET'. rewrite B1 in ET'. apply Ok_inj in ET'. subst T'.
  exists T. cbn [solver_of sv_build]. split; [exact B|]. rewrite (apply_scaled _ _ _ g0 SM), mult_mult.
  rewrite Qcmult_inv_r by (apply s_nz; exact Hs). apply mult_1.
Qed.

Theorem moved_stages gesv gesv' load load' t t' st st' g :
  gesv_contract gesv -> gesv_contract gesv' -> fresh load q t -> fresh load' (moved_tree k s X Y q) t' ->
  well_posed m (solver_of solve) q -> 3 <= m \/ equal_levels q -> length g = 4 * (m * 2 ^ level q) ->
  exists st1 t1 t2 t3 st1' t1' t2' t3',
    buildStage (solver_of solve) gesv false st t = Ok (st1, t1) /\
    upwardsStage (solver_of solve) gesv false load t1 = Ok t2 /\
    solveStage (solver_of solve) false g t2 = Ok t3 /\
    buildStage (solver_of solve') gesv' false st' t' = Ok (st1', t1') /\
    upwardsStage (solver_of solve') gesv' false load' t1' = Ok t2' /\
    solveStage (solver_of solve') false g t2' = Ok t3' /\
    computed_values t3' = computed_values t3 /\
    vplus (apply_op (pT (data t2')) g) (ph (data t2')) = vscale (/ s) (vplus (apply_op (pT (data t2)) g) (ph (data t2))).
Proof.
  intros Hg Hg' HF HF' HW H3 Lg. destruct (good_related q _ moved_related) as (GL & GL').
  destruct (solver_glued_pf m (solver_of solve) gesv load q t st g) as (st1 & t1 & t2 & t3 & U & h & E1 & E2 & E3 & Gl & Ev & Eh & _); auto.
  destruct (solver_glued_pf m (solver_of solve') gesv' load' (moved_tree k s X Y q) t' st' g)
    as (st1' & t1' & t2' & t3' & U' & h' & E1' & E2' & E3' & Gl' & Ev' & Eh' & Un'); auto.
  { apply moved_posed. exact HW. }
  { destruct H3 as [H3|H3]; [left; exact H3|right; eapply related_equal; [apply moved_related|exact H3]]. }
  { rewrite (related_level _ _ _ moved_related). exact Lg. }
  exists st1, t1, t2, t3, st1', t1', t2', t3'. repeat (split; [assumption|]).
  assert (Gm : glued m (solver_leaf (solver_of solve')) (moved_tree k s X Y q) g (mult (/ s) h) U).
  { eapply glued_mult; [apply moved_related| |exact Gl]. intros G0 f0 G1 f1 g0 u0 h0 (O & Ex & Ey & L & -> & ->) Lg0 HL.
    eapply (leaf_mult k s X Y c c' G0 m); eauto. }
  destruct (Un' _ _ Gm) as (EU & EH). split; [rewrite Ev, Ev', EU; reflexivity|].
  rewrite <- Eh', <- EH, mult_scale, Eh. reflexivity.
Qed.
End Tree.
