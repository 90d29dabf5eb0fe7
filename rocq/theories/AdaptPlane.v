(** Linear functions pass through interpolation, averaging and gluing unchanged. *)
From Verif Require Import Base VectorModel MatrixModel LinSpec HPSModel HPSSpec FVModel FVSpec GlobalSpec StageSpec AdaptSpec.
From Verif Require Import MatProofs MatProofs2 LinProofs HPSProofs HPSProofs3 HPSProofs4 HPSStage2 HPSTree HPSTree2 HPSProps.
From Verif Require Import FVProofs FVProofs2 FVProofs3 FVMax FVJoin FVGlobal FVFish AdaptProofs.
From Coq Require Import Lia.

Ltac tnz := first [exact two_nz | let HH := fresh in intros HH; apply (f_equal this) in HH; discriminate HH].

Lemma vval_firstn n (v : list Qc) i : i < n -> vval (firstn n v) i = vval v i.
Proof. intros Hi. change (firstn n v) with (piece n v 0). rewrite vval_piece by auto. f_equal. Qed.
Lemma vval_skipn n (v : list Qc) i : vval (skipn n v) i = vval v (n + i).
Proof.
  unfold vval. revert v. induction n as [|n IH]; intros v; [reflexivity|]. destruct v as [|a v]; [destruct i; reflexivity|]. apply IH.
Qed.

(** The values of a + d t in the middle of n intervals of [0,1]. *)
Definition line (n : nat) (a d : Qc) : list Qc :=
  vec_of n (fun i => a + d * ((Qc_of_nat i + Qc_of_nat i + 1) / (Qc_of_nat n + Qc_of_nat n)))%Qc.

Lemma line_length n a d : length (line n a d) = n.
Proof. apply vec_of_length. Qed.
Lemma Qc_two n : Qc_of_nat (2 * n) = (Qc_of_nat n + Qc_of_nat n)%Qc.
Proof. replace (2 * n) with (n + n) by lia. apply Qc_of_nat_add. Qed.

Lemma refine_line n a d : 3 <= n -> refine_side n (line n a d) = line (2 * n) a d.
Proof.
  intros Hn. apply vval_ext; [rewrite refine_side_length, line_length; reflexivity|].
  rewrite refine_side_length. intros i Hi. unfold refine_side. rewrite vval_map_seq by auto.
  assert (Nz : Qc_of_nat n <> 0%Qc) by (apply Qc_of_nat_pos; lia).
  assert (V : forall k N, k < N -> vval (line N a d) k = (a + d * ((Qc_of_nat k + Qc_of_nat k + 1) / (Qc_of_nat N + Qc_of_nat N)))%Qc).
  { intros k N Hk. unfold line. rewrite vval_vec_of by auto. reflexivity. }
  rewrite (V i (2 * n)) by auto. rewrite Qc_two. unfold fine_value.
  change (Q2Qc (3 # 4)) with ((1 + 1 + 1) / (1 + 1) / (1 + 1))%Qc. change (Q2Qc (1 # 4)) with (1 / (1 + 1) / (1 + 1))%Qc.
  change (Q2Qc (45 # 32)) with (Qc_of_nat 45 / Qc_of_nat 32)%Qc. change (Q2Qc (-9 # 16)) with (- Qc_of_nat 9 / Qc_of_nat 16)%Qc. change (Q2Qc (5 # 32)) with (Qc_of_nat 5 / Qc_of_nat 32)%Qc.
  assert (E32 : Qc_of_nat 32 = ((1 + 1) * (1 + 1) * (1 + 1) * (1 + 1) * (1 + 1))%Qc) by (apply Qc_is_canon; reflexivity).
  assert (E16 : Qc_of_nat 16 = ((1 + 1) * (1 + 1) * (1 + 1) * (1 + 1))%Qc) by (apply Qc_is_canon; reflexivity).
  assert (E9 : Qc_of_nat 9 = ((1 + 1 + 1) * (1 + 1 + 1))%Qc) by (apply Qc_is_canon; reflexivity).
  assert (E5 : Qc_of_nat 5 = (1 + 1 + 1 + 1 + 1)%Qc) by (apply Qc_is_canon; reflexivity).
  assert (E45 : Qc_of_nat 45 = ((1 + 1 + 1) * (1 + 1 + 1) * (1 + 1 + 1 + 1 + 1))%Qc) by (apply Qc_is_canon; reflexivity).
  rewrite E45, E32, E16, E9, E5. clear E45 E32 E16 E9 E5.
  assert (Nz2 : (Qc_of_nat n + Qc_of_nat n <> 0)%Qc) by (rewrite <- Qc_two; apply Qc_of_nat_pos; lia).
  assert (Nz4 : (Qc_of_nat n + Qc_of_nat n + (Qc_of_nat n + Qc_of_nat n) <> 0)%Qc) by (rewrite <- !Qc_two; apply Qc_of_nat_pos; lia).
  destruct (Nat.eqb_spec i 0) as [->|I0].
  { rewrite !V by lia. change (Qc_of_nat 0) with 0%Qc. change (Qc_of_nat 1) with 1%Qc. change (Qc_of_nat 2) with (1 + 1)%Qc.
    field. repeat split; auto; tnz. }
  destruct (Nat.eqb_spec i (2 * n - 1)) as [->|I1].
  { rewrite !V by lia. destruct n as [|[|[|k]]]; try lia.
    replace (2 * S (S (S k)) - 1) with (2 * k + 5) by lia. replace (S (S (S k)) - 1) with (k + 2) by lia.
    replace (S (S (S k)) - 2) with (k + 1) by lia. replace (S (S (S k)) - 3) with k by lia.
    replace (S (S (S k))) with (k + 3) in * by lia. rewrite !Qc_of_nat_add, !Qc_two in *.
    change (Qc_of_nat 1) with 1%Qc in *. change (Qc_of_nat 2) with (1 + 1)%Qc in *. change (Qc_of_nat 3) with (1 + 1 + 1)%Qc in *. change (Qc_of_nat 5) with (1 + 1 + 1 + 1 + 1)%Qc in *.
    field. repeat split; auto; tnz. }
  destruct (Nat.odd i) eqn:Ho.
  - apply Nat.odd_spec in Ho. destruct Ho as (k & ->).
    replace ((2 * k + 1) / 2) with k by (rewrite Nat.add_comm, Nat.mul_comm, Nat.div_add by lia; reflexivity).
    rewrite !V by lia. rewrite !Qc_of_nat_add, !Qc_two. change (Qc_of_nat 1) with 1%Qc. field. repeat split; auto; tnz.
  - rewrite <- Nat.negb_even in Ho. apply Bool.negb_false_iff, Nat.even_spec in Ho. destruct Ho as (k & ->).
    replace (2 * k / 2) with k by (rewrite Nat.mul_comm, Nat.div_mul by lia; reflexivity).
    destruct k as [|k]; [lia|]. replace (S k - 1) with k by lia. rewrite !V by lia.
    replace (S k) with (k + 1) by lia. rewrite Qc_two, Qc_of_nat_add. change (Qc_of_nat 1) with 1%Qc. field. repeat split; auto; tnz.
Qed.

Section Plane.
Context (p q r : Qc).
Notation F := (plane p q r).

(** The four sides of a rectangle as lines. *)
Definition side_line (n : nat) (G : grid) (k : nat) : list Qc :=
  match k with
  | 0 => line n (F (gxl G) (gyl G)) (r * (gyu G - gyl G))
  | 1 => line n (F (gxu G) (gyl G)) (r * (gyu G - gyl G))
  | 2 => line n (F (gxl G) (gyl G)) (q * (gxu G - gxl G))
  | _ => line n (F (gxl G) (gyu G)) (q * (gxu G - gxl G))
  end.

Lemma side_line_length n G k : length (side_line n G k) = n.
Proof. unfold side_line. destruct k as [|[|[|k]]]; apply line_length. Qed.

Lemma boundary_lines n G : n <> 0 -> on_boundary F (rect n G) = concat (map (side_line n G) [0; 1; 2; 3]).
Proof.
  intros Hn. cbn [map concat]. rewrite app_nil_r. unfold on_boundary. cbn [rect gxl gxu gyl gyu gnx gny].
  assert (Nz : Qc_of_nat n <> 0%Qc) by (apply Qc_of_nat_pos; lia).
  assert (Nz2 : (Qc_of_nat n + Qc_of_nat n <> 0)%Qc) by (rewrite <- Qc_two; apply Qc_of_nat_pos; lia).
  f_equal; [|f_equal; [|f_equal]]; unfold side_line, line; rewrite map_seq_vec; apply vec_of_ext; intros i _;
    unfold mid_x, mid_y, face_x, face_y, width_x, width_y, plane; cbn [rect gxl gxu gyl gyu gnx gny];
    rewrite Qc_of_nat_S; field; repeat split; auto; tnz.
Qed.

Lemma on_boundary_length n G : n <> 0 -> length (on_boundary F (rect n G)) = 4 * n.
Proof. intros Hn. rewrite boundary_lines by auto. cbn [map concat]. rewrite !app_length, !side_line_length. cbn [length]. lia. Qed.

Lemma boundary_piece n G k : n <> 0 -> k < 4 -> piece n (on_boundary F (rect n G)) k = side_line n G k.
Proof. intros Hn Hk. rewrite boundary_lines by auto. apply piece_concat4; auto. intros; apply side_line_length. Qed.

Lemma refine_side_line n G k : 3 <= n -> refine_side n (side_line n G k) = side_line (2 * n) G k.
Proof. intros Hn. unfold side_line. destruct k as [|[|[|k]]]; apply refine_line; auto. Qed.

Lemma refine4_plane n G : 3 <= n -> refine4 n (on_boundary F (rect n G)) = on_boundary F (rect (2 * n) G).
Proof.
  intros Hn. rewrite (boundary_lines (2 * n)) by lia. unfold refine4. f_equal. apply map_ext_in. intros k Hk.
  assert (k < 4) by (cbn [In] in Hk; lia). rewrite boundary_piece by lia. apply refine_side_line. exact Hn.
Qed.
Lemma refine_by_plane k : forall n G, 3 <= n \/ k = 0 -> refine_by k n (on_boundary F (rect n G)) = on_boundary F (rect (n * 2 ^ k) G).
Proof.
  induction k as [|k IH]; intros n G Hn; [cbn [refine_by Nat.pow]; rewrite Nat.mul_1_r; reflexivity|].
  cbn [refine_by]. destruct Hn as [Hn|]; [|discriminate]. rewrite refine4_plane by auto. rewrite IH by lia. f_equal. f_equal. cbn [Nat.pow]. lia.
Qed.

(** Values on the four interfaces of a rectangle cut into quarters. *)
Definition interface_values (n : nat) (G : grid) : list Qc :=
  side_line n (quarter n G false false) 3 ++ side_line n (quarter n G true false) 3 ++
  side_line n (quarter n G false false) 1 ++ side_line n (quarter n G false true) 1.

Lemma firstn_line n a d : n <> 0 -> firstn n (line (2 * n) a d) = line n a (d / (1 + 1)).
Proof.
  intros Hn. assert (Nz : Qc_of_nat n <> 0%Qc) by (apply Qc_of_nat_pos; lia).
  assert (Nz2 : (Qc_of_nat n + Qc_of_nat n <> 0)%Qc) by (rewrite <- Qc_two; apply Qc_of_nat_pos; lia).
  assert (Nz4 : (Qc_of_nat n + Qc_of_nat n + (Qc_of_nat n + Qc_of_nat n) <> 0)%Qc) by (rewrite <- !Qc_two; apply Qc_of_nat_pos; lia).
  apply vval_ext; [rewrite firstn_length, !line_length; lia|]. rewrite firstn_length, line_length. intros i Hi.
  rewrite vval_firstn by lia. unfold line. rewrite !vval_vec_of by lia. rewrite Qc_two. field. repeat split; auto; tnz.
Qed.
Lemma skipn_line n a d : n <> 0 -> skipn n (line (2 * n) a d) = line n (a + d / (1 + 1)) (d / (1 + 1)).
Proof.
  intros Hn. assert (Nz : Qc_of_nat n <> 0%Qc) by (apply Qc_of_nat_pos; lia).
  assert (Nz2 : (Qc_of_nat n + Qc_of_nat n <> 0)%Qc) by (rewrite <- Qc_two; apply Qc_of_nat_pos; lia).
  assert (Nz4 : (Qc_of_nat n + Qc_of_nat n + (Qc_of_nat n + Qc_of_nat n) <> 0)%Qc) by (rewrite <- !Qc_two; apply Qc_of_nat_pos; lia).
  apply vval_ext; [rewrite skipn_length, !line_length; lia|]. rewrite skipn_length, line_length. intros i Hi.
  rewrite vval_skipn. unfold line. rewrite !vval_vec_of by lia. rewrite Qc_two, Qc_of_nat_add. field. repeat split; auto; tnz.
Qed.
Lemma line_eq n a a' d d' : a = a' -> d = d' -> line n a d = line n a' d'.
Proof. intros -> ->. reflexivity. Qed.

Lemma piece_half n v k : piece n v (2 * k) = firstn n (piece (2 * n) v k).
Proof. unfold piece. rewrite firstn_firstn. rewrite Nat.min_l by lia. f_equal. f_equal. lia. Qed.
Lemma piece_half' n v k K : length v = K * (2 * n) -> k < K -> piece n v (2 * k + 1) = skipn n (piece (2 * n) v k).
Proof.
  intros L Hk. assert (P : length (piece (2 * n) v k) = 2 * n) by (eapply piece_length; eauto).
  assert (L2 : length v = (2 * K) * n) by lia.
  apply vval_ext; [rewrite (piece_length n v (2 * k + 1) (2 * K)), skipn_length, P by lia; lia|].
  rewrite (piece_length n v (2 * k + 1) (2 * K)) by lia. intros i Hi. rewrite vval_piece by auto.
  rewrite vval_skipn, vval_piece by lia. f_equal. lia.
Qed.

Lemma piece4 n (a b c d : list Qc) : length a = n -> length b = n -> length c = n -> length d = n ->
  piece n (a ++ b ++ c ++ d) 0 = a /\ piece n (a ++ b ++ c ++ d) 1 = b /\ piece n (a ++ b ++ c ++ d) 2 = c /\ piece n (a ++ b ++ c ++ d) 3 = d.
Proof.
  intros La Lb Lc Ld. set (f := fun k : nat => match k with 0 => a | 1 => b | 2 => c | _ => d end).
  assert (E : a ++ b ++ c ++ d = concat (map f [0; 1; 2; 3])) by (cbn [map concat f]; rewrite app_nil_r; reflexivity).
  rewrite E. assert (Lf : forall k, k < 4 -> length (f k) = n) by (intros [|[|[|k]]] _; assumption).
  rewrite !(piece_concat4 n f) by (auto; lia). repeat split.
Qed.

Lemma children_plane n G : n <> 0 ->
  children_data n (on_boundary F (rect (2 * n) G)) (interface_values n G) =
  Four (on_boundary F (quarter n G false false)) (on_boundary F (quarter n G true false))
       (on_boundary F (quarter n G false true)) (on_boundary F (quarter n G true true)).
Proof.
  intros Hn. set (g := on_boundary F (rect (2 * n) G)).
  assert (Lg : length g = 4 * (2 * n)) by (apply on_boundary_length; lia).
  assert (Pg : forall k, k < 4 -> piece n g (2 * k) = firstn n (side_line (2 * n) G k) /\ piece n g (2 * k + 1) = skipn n (side_line (2 * n) G k)).
  { intros k Hk. rewrite piece_half, (piece_half' n g k 4) by auto. unfold g. rewrite boundary_piece by lia. auto. }
  destruct (Pg 0 ltac:(lia)) as (P0 & P1), (Pg 1 ltac:(lia)) as (P2 & P3), (Pg 2 ltac:(lia)) as (P4 & P5), (Pg 3 ltac:(lia)) as (P6 & P7).
  change (2 * 0) with 0 in *. change (2 * 1) with 2 in *. change (2 * 2) with 4 in *. change (2 * 3) with 6 in *.
  change (0 + 1) with 1 in *. change (2 + 1) with 3 in *. change (4 + 1) with 5 in *. change (6 + 1) with 7 in *.
  unfold interface_values.
  destruct (piece4 n (side_line n (quarter n G false false) 3) (side_line n (quarter n G true false) 3)
    (side_line n (quarter n G false false) 1) (side_line n (quarter n G false true) 1)) as (Z0 & Z1 & Z2 & Z3); try apply side_line_length.
  unfold children_data. rewrite P0, P1, P2, P3, P4, P5, P6, P7, Z0, Z1, Z2, Z3.
  assert (B : forall e t, on_boundary F (quarter n G e t) = side_line n (quarter n G e t) 0 ++ side_line n (quarter n G e t) 1 ++ side_line n (quarter n G e t) 2 ++ side_line n (quarter n G e t) 3).
  { intros e t. change (quarter n G e t) with (rect n (quarter n G e t)) at 1. rewrite boundary_lines by auto. cbn [map concat]. rewrite app_nil_r. reflexivity. }
  rewrite !B. clear - Hn. unfold side_line. rewrite !firstn_line, !skipn_line by auto.
  cbn [quarter gxl gxu gyl gyu].
  f_equal; repeat (f_equal; []); repeat match goal with |- _ ++ _ = _ ++ _ => f_equal end;
    apply line_eq; unfold plane; field; tnz.
Qed.

Definition plane_flux (n : nat) : list Qc := repeat q n ++ repeat q n ++ repeat r n ++ repeat r n.

Lemma plane_flux_length n : length (plane_flux n) = 4 * n.
Proof. unfold plane_flux. rewrite !app_length, !repeat_length. lia. Qed.
Lemma plane_flux_piece n k : k < 4 -> piece n (plane_flux n) k = match k with 0 => repeat q n | 1 => repeat q n | _ => repeat r n end.
Proof.
  intros Hk. destruct (piece4 n (repeat q n) (repeat q n) (repeat r n) (repeat r n)) as (A & B & C & D); try apply repeat_length.
  unfold plane_flux. destruct k as [|[|[|[|k]]]]; auto; lia.
Qed.
Lemma coarsen_repeat n a : coarsen_side n (repeat a (2 * n)) = repeat a n.
Proof.
  apply vval_ext; [rewrite coarsen_side_length, repeat_length; reflexivity|]. rewrite coarsen_side_length. intros i Hi.
  unfold coarsen_side. rewrite vval_map_seq by auto. rewrite !repeat_vec, !vval_vec_of by lia.
  change (Q2Qc (1 # 2)) with (/ (1 + 1))%Qc. field. tnz.
Qed.
Lemma coarsen4_flux n : coarsen4 n (plane_flux (2 * n)) = plane_flux n.
Proof.
  unfold coarsen4. rewrite (map_ext_in _ (fun k => match k with 0 => repeat q n | 1 => repeat q n | _ => repeat r n end)).
  - cbn [map concat]. rewrite app_nil_r. reflexivity.
  - intros k Hk. assert (k < 4) by (cbn [In] in Hk; lia). rewrite plane_flux_piece by auto. destruct k as [|[|k]]; apply coarsen_repeat.
Qed.
Lemma coarsen_by_flux k : forall n, coarsen_by k n (plane_flux (n * 2 ^ k)) = plane_flux n.
Proof.
  induction k as [|k IH]; intros n; cbn [coarsen_by]; [cbn [Nat.pow]; rewrite Nat.mul_1_r; reflexivity|].
  replace (n * 2 ^ S k) with (2 * n * 2 ^ k) by (cbn [Nat.pow]; lia). rewrite IH. apply coarsen4_flux.
Qed.
Lemma outer_plane n : outer_flux n (Four (plane_flux n) (plane_flux n) (plane_flux n) (plane_flux n)) = plane_flux (2 * n).
Proof.
  unfold outer_flux. cbn [fa fb fc fd]. rewrite !plane_flux_piece by lia. unfold plane_flux.
  replace (2 * n) with (n + n) by lia. rewrite !repeat_app, <- !app_assoc. reflexivity.
Qed.

(** ** The linear function as a solution of the glued problem *)
Fixpoint plane_solution_of (m : nat) (G : grid) (s : qtree) : solution :=
  match s with
  | QLeaf _ _ => SLeaf (on_boundary F (rect m G)) (sampled F (rect m G))
  | QNode a b c d =>
      SNode (interface_values (m * 2 ^ min_level a b c d) G)
        (plane_solution_of m (quarter m G false false) a) (plane_solution_of m (quarter m G true false) b)
        (plane_solution_of m (quarter m G false true) c) (plane_solution_of m (quarter m G true true) d)
  end.

Section Glue.
Context (m : nat) (Hm : 1 <= m) (L : leaf_relation).

Lemma plane_glued s : forall G, oriented (rect m G) -> tiled m G s -> 3 <= m \/ equal_levels s ->
  (forall G' f, oriented G' -> gnx G' = m -> gny G' = m -> length f = m * m -> In (G', f) (leaves s) ->
     L G' f (on_boundary F G') (sampled F G') (plane_flux m)) ->
  glued m L s (on_boundary F (rect (m * 2 ^ level s) G)) (plane_flux (m * 2 ^ level s)) (plane_solution_of m G s).
Proof.
  induction s as [G0 f|sa IHa sb IHb sc IHc sd IHd]; intros G HO HT HQ HL.
  - destruct HT as (-> & Lf). cbn [level Nat.pow]. rewrite Nat.mul_1_r. cbn [glued plane_solution_of].
    split; [reflexivity|]. split; [apply on_boundary_length; lia|]. apply HL; auto. left. reflexivity.
  - destruct HT as (Ta & Tb & Tc & Td).
    pose proof (min_level_le sa sb sc sd) as (Ma & Mb & Mc & Md). set (l := min_level sa sb sc sd) in *.
    assert (Nn : m * 2 ^ l <> 0) by (apply pow_nz; lia).
    assert (QO : forall e t, oriented (rect m (quarter m G e t))) by (intros e t; apply (quarter_orient m m G e t); auto; lia).
    assert (El : m * 2 ^ level (QNode sa sb sc sd) = 2 * (m * 2 ^ l)).
    { cbn [level]. fold (min_level sa sb sc sd). fold l. cbn [Nat.add Nat.pow]. lia. }
    rewrite El. cbn [glued plane_solution_of]. fold l. cbv zeta. set (n := m * 2 ^ l) in *.
    split; [rewrite on_boundary_length; lia|]. split; [unfold interface_values; rewrite !app_length, !side_line_length; lia|].
    assert (H3 : forall s', l <= level s' -> (3 <= m \/ level s' = l) -> 3 <= n \/ level s' - l = 0).
    { intros s' H [H'|H']; [left; unfold n; pose proof (pow_pos l); nia|right; lia]. }
    assert (HE : (3 <= m \/ level sa = l) /\ (3 <= m \/ level sb = l) /\ (3 <= m \/ level sc = l) /\ (3 <= m \/ level sd = l)).
    { destruct HQ as [HQ|HQ]; [auto|]. cbn [equal_levels] in HQ. unfold l, min_level. repeat split; right; lia. }
    destruct HE as (HEa & HEb & HEc & HEd).
    assert (HQ' : (3 <= m \/ equal_levels sa) /\ (3 <= m \/ equal_levels sb) /\ (3 <= m \/ equal_levels sc) /\ (3 <= m \/ equal_levels sd)).
    { destruct HQ as [HQ|HQ]; [auto|]. cbn [equal_levels] in HQ. tauto. }
    destruct HQ' as (HQa & HQb & HQc & HQd).
    exists (Four (plane_flux (m * 2 ^ level sa)) (plane_flux (m * 2 ^ level sb)) (plane_flux (m * 2 ^ level sc)) (plane_flux (m * 2 ^ level sd))).
    rewrite children_plane by auto. cbn [fa fb fc fd].
    change (quarter n G false false) with (rect n (quarter m G false false)). change (quarter n G true false) with (rect n (quarter m G true false)).
    change (quarter n G false true) with (rect n (quarter m G false true)). change (quarter n G true true) with (rect n (quarter m G true true)).
    rewrite !refine_by_plane by auto. unfold n. rewrite !scale_level by auto. fold n.
    split; [apply IHa; auto; intros; apply HL; auto; cbn [leaves]; rewrite !in_app_iff; auto|].
    split; [apply IHb; auto; intros; apply HL; auto; cbn [leaves]; rewrite !in_app_iff; auto|].
    split; [apply IHc; auto; intros; apply HL; auto; cbn [leaves]; rewrite !in_app_iff; auto|].
    split; [apply IHd; auto; intros; apply HL; auto; cbn [leaves]; rewrite !in_app_iff; auto|].
    assert (CF : forall k, l <= k -> coarsen_by (k - l) n (plane_flux (m * 2 ^ k)) = plane_flux n).
    { intros k Hk. rewrite <- (scale_level m l k Hk). fold n. apply coarsen_by_flux. }
    rewrite !CF by auto. split.
    + unfold continuous. cbn [fa fb fc fd]. rewrite !plane_flux_piece by lia. auto.
    + symmetry. apply outer_plane.
Qed.

Lemma plane_values s : forall G, tiled m G s ->
  leaf_values (plane_solution_of m G s) = map (fun z => (on_boundary F (fst z), sampled F (fst z))) (leaves s).
Proof.
  induction s as [G0 f|sa IHa sb IHb sc IHc sd IHd]; intros G HT.
  - destruct HT as (-> & _). reflexivity.
  - destruct HT as (Ta & Tb & Tc & Td). cbn [plane_solution_of leaf_values leaves]. rewrite !map_app.
    rewrite (IHa _ Ta), (IHb _ Tb), (IHc _ Tc), (IHd _ Td). reflexivity.
Qed.
End Glue.
End Plane.
