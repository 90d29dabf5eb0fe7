(** Proofs about the error report. *)
From Coq Require Import Lqa.
From Verif Require Import Base VectorModel MatrixModel LinSpec NormSpec HPSModel HPSSpec StageSpec FVModel FVSpec GlobalSpec AdaptSpec ReportModel ReportSpec.
From Verif Require Import MatProofs LinProofs HPSProofs3 HPSHistory HPSRebuild FVProofs FVProofs2 FVMax FVProps MixProps NormProps ConvProofs ThermalProofs HeatProofs.
From Coq Require Import Lia.

(** ** Sums over cells *)
Lemma integral_cons phi c l : integral phi (c :: l) = (s_area c * phi c + integral phi l)%Qc.
Proof. reflexivity. Qed.
Lemma integral_app phi a b : integral phi (a ++ b) = (integral phi a + integral phi b)%Qc.
Proof. induction a as [|c a IH]; [change (integral phi []) with 0%Qc; cbn [app]; ring|]. cbn [app]. rewrite !integral_cons, IH. ring. Qed.
Lemma integral_ext phi psi l : (forall c, In c l -> phi c = psi c) -> integral phi l = integral psi l.
Proof.
  induction l as [|c l IH]; intros H; [reflexivity|]. cbn [integral fold_right]. fold (integral phi l) (integral psi l).
  rewrite (H c) by (left; reflexivity). rewrite IH; [reflexivity|]. intros; apply H; right; auto.
Qed.
Lemma integral_le phi psi l : (forall c, In c l -> (0 <= s_area c)%Qc /\ (phi c <= psi c)%Qc) -> (integral phi l <= integral psi l)%Qc.
Proof.
  induction l as [|c l IH]; intros H; [apply Qcle_refl|]. cbn [integral fold_right]. fold (integral phi l) (integral psi l).
  destruct (H c) as (A & B); [left; reflexivity|]. apply Qcplus_le_compat; [|apply IH; intros; apply H; right; auto].
  apply le_minus. replace (s_area c * psi c - s_area c * phi c)%Qc with (s_area c * (psi c - phi c))%Qc by ring. apply mul_nonneg; auto. apply -> le_minus; assumption.
Qed.
Lemma integral_lin a phi psi l : integral (fun c => a * phi c + psi c)%Qc l = (a * integral phi l + integral psi l)%Qc.
Proof. induction l as [|c l IH]; [cbn; ring|]. rewrite !integral_cons, IH. ring. Qed.
Lemma integral_const k l : integral (fun _ => k) l = (k * integral (fun _ => 1%Qc) l)%Qc.
Proof. induction l as [|c l IH]; [cbn; ring|]. rewrite !integral_cons, IH. ring. Qed.

Lemma size_abs x : size x = Qcabs x.
Proof.
  destruct (abs_bound x) as (A & B & C & D). unfold size. destruct (Qclt_le_dec 0 x) as [H|H]; unfold Qcabs in *; destruct (Qclt_le_dec x 0) as [K|K]; auto.
  - exfalso. apply (Qclt_not_le _ _ H). now apply Qclt_le_weak.
  - assert (x = 0%Qc) by (apply Qcle_antisym; auto). subst. ring.
Qed.
Lemma size_sq x : (size x * size x = x * x)%Qc.
Proof. rewrite size_abs. destruct (abs_bound x) as (_ & _ & _ & [->| ->]); ring. Qed.
Lemma size_nonneg x : (0 <= size x)%Qc.
Proof. rewrite size_abs. apply abs_bound. Qed.
Lemma size_le x m : (- m <= x)%Qc -> (x <= m)%Qc -> (size x <= m)%Qc.
Proof. intros A B. rewrite size_abs. destruct (abs_bound x) as (_ & _ & _ & [->| ->]); auto. unfold Qcle in *. rewrite this_opp in *. lra. Qed.

(** ** What the totals mean *)
Definition describes (V : Qc -> Qc -> Qc) (cs : list spot) (r : report) : Prop :=
  rl1 r = integral (fun c => size (off V c)) cs /\ rl2 r = integral (fun c => off V c * off V c)%Qc cs /\
  largest (fun c => In c cs) (off V) (rlI r).

Lemma describes_none V : describes V [] no_report.
Proof. split; [reflexivity|]. split; [reflexivity|]. apply largest_none. intros i []. Qed.

Lemma describes_cell V G u i j cs r : j + i * gny G < length u -> describes V cs r ->
  exists r', report_cell V G u i j r = Ok r' /\ rn r' = rn r /\
    describes V (cs ++ [Spot (width_x G * width_y G) (mid_x G i) (mid_y G j) (cell G u i j)]) r'.
Proof.
  intros Hk (A & B & C). unfold report_cell. cbv zeta. rewrite (vget_ok u _ 0%Qc Hk), bind_Ok, gx_mid, gy_mid.
  set (c := Spot _ _ _ _). change (nth (j + i * gny G) u 0%Qc - V (mid_x G i) (mid_y G j))%Qc with (off V c).
  change (gdx G * gdy G)%Qc with (s_area c). eexists. split; [reflexivity|]. split; [reflexivity|]. unfold describes. cbn [rl1 rl2 rlI].
  rewrite !integral_app, <- A, <- B, <- !size_abs, !integral_cons. change (integral _ []) with 0%Qc. change (integral (fun c0 => off V c0 * off V c0)%Qc []) with 0%Qc. split; [ring|]. split; [rewrite size_sq; ring|].
  rewrite size_abs. apply (largest_step (fun c => In c cs)); auto. intros x. rewrite in_app_iff. cbn [In]. split; [intros [H|[H|[]]]; auto|intros [H|H]; auto].
Qed.

Lemma describes_leaf V p cs r : length (pu p) = gnx (pgrid p) * gny (pgrid p) -> describes V cs r ->
  exists r', report_leaf V r p = Ok r' /\ rn r' = S (rn r) /\ describes V (cs ++ leaf_spots (pgrid p, pu p)) r'.
Proof.
  intros L D. unfold report_leaf, leaf_spots. cbv zeta. cbn [fst snd]. set (G := pgrid p) in *.
  set (row := fun i k => map (fun j => Spot (width_x G * width_y G) (mid_x G i) (mid_y G j) (cell G (pu p) i j)) (seq 0 k)).
  assert (R : forall i cs r, i < gnx G -> describes V cs r -> forall k, k <= gny G ->
    exists r', foldM (fun r j => report_cell V G (pu p) i j r) (seq 0 k) r = Ok r' /\ rn r' = rn r /\ describes V (cs ++ row i k) r').
  { intros i cs0 r0 Hi D0. induction k as [|k IH]; intros Hk.
    - exists r0. split; [reflexivity|]. split; [reflexivity|]. unfold row. cbn [seq map]. rewrite app_nil_r. exact D0.
    - destruct IH as (r1 & E1 & N1 & D1); [lia|]. rewrite seq_S, foldM_app, E1, bind_Ok. cbn [Nat.add foldM].
      destruct (describes_cell V G (pu p) i k (cs0 ++ row i k) r1) as (r2 & E2 & N2 & D2); [rewrite L; nia|exact D1|]. exists r2. rewrite E2, bind_Ok.
      split; [reflexivity|]. split; [congruence|]. unfold row in *. rewrite seq_S, map_app, app_assoc. exact D2. }
  assert (C : forall k, k <= gnx G -> exists r', foldM (fun r i => foldM (fun r j => report_cell V G (pu p) i j r) (seq 0 (gny G)) r) (seq 0 k) r = Ok r' /\
    rn r' = rn r /\ describes V (cs ++ flat_map (fun i => row i (gny G)) (seq 0 k)) r').
  { induction k as [|k IH]; intros Hk.
    - exists r. split; [reflexivity|]. split; [reflexivity|]. cbn [seq flat_map]. rewrite app_nil_r. exact D.
    - destruct IH as (r1 & E1 & N1 & D1); [lia|]. rewrite seq_S, foldM_app, E1, bind_Ok. cbn [Nat.add foldM].
      destruct (R k _ r1 ltac:(lia) D1 (gny G) (le_n _)) as (r2 & E2 & N2 & D2). exists r2. rewrite E2, bind_Ok.
      split; [reflexivity|]. split; [congruence|]. rewrite flat_map_app, app_assoc. cbn [flat_map]. rewrite app_nil_r. exact D2. }
  destruct (C (gnx G) (le_n _)) as (r1 & E1 & N1 & D1). rewrite E1, bind_Ok. eexists. split; [reflexivity|]. cbn [rn]. split; [congruence|exact D1].
Qed.

Definition full (p : patch) : Prop := length (pu p) = gnx (pgrid p) * gny (pgrid p).
Definition values (ps : list patch) : list (grid * list Qc) := map (fun p => (pgrid p, pu p)) ps.

Lemma describes_list V ps : Forall full ps -> forall cs r, describes V cs r ->
  exists r', foldM (report_leaf V) ps r = Ok r' /\ rn r' = rn r + length ps /\ describes V (cs ++ spots (values ps)) r'.
Proof.
  induction 1 as [|p ps Hp Hps IH]; intros cs r D.
  - exists r. split; [reflexivity|]. cbn [length values map spots flat_map]. rewrite app_nil_r, Nat.add_0_r. auto.
  - destruct (describes_leaf V p cs r Hp D) as (r1 & E1 & N1 & D1). destruct (IH _ _ D1) as (r2 & E2 & N2 & D2).
    exists r2. cbn [foldM]. rewrite E1, bind_Ok, E2. split; [reflexivity|]. cbn [length]. split; [lia|]. cbn [values map spots flat_map].
    rewrite app_assoc. exact D2.
Qed.

Lemma report_tree_list V t : forall r, report_tree V r t = foldM (report_leaf V) (tree_leaves t) r.
Proof.
  induction t as [p|p a IHa b IHb c IHc d IHd]; intros r; cbn [report_tree tree_leaves foldM].
  - destruct (report_leaf V r p); reflexivity.
  - rewrite !foldM_app, IHa. destruct (foldM _ (tree_leaves a) r); [|reflexivity|reflexivity]. rewrite !bind_Ok, foldM_app, IHb.
    destruct (foldM _ (tree_leaves b) a0); [|reflexivity|reflexivity]. rewrite !bind_Ok, foldM_app, IHc.
    destruct (foldM _ (tree_leaves c) a1); [|reflexivity|reflexivity]. rewrite !bind_Ok, IHd. reflexivity.
Qed.

(** ** Norms in order *)
Section Order.
Context (V : Qc -> Qc -> Qc) (cs : list spot) (r : report) (HD : describes V cs r) (A : Qc) (PA : (0 < A)%Qc).
Context (HA : integral (fun _ => 1%Qc) cs = A) (HW : forall c, In c cs -> (0 <= s_area c)%Qc).

Lemma A_nz : A <> 0%Qc.
Proof. intros E. rewrite E in PA. now apply Qclt_not_eq in PA. Qed.
Lemma div_le x y : (x <= y * A)%Qc -> (x / A <= y)%Qc.
Proof.
  intros H. pose proof (inv_pos _ PA) as I. apply le_minus. replace (y - x / A)%Qc with (/ A * (y * A - x))%Qc by (field; apply A_nz).
  apply mul_nonneg; [apply Qclt_le_weak; exact I|]. apply -> le_minus; assumption.
Qed.

Lemma l1_lI : (0 <= rl1 r / A)%Qc /\ (rl1 r / A <= rlI r)%Qc.
Proof.
  destruct HD as (E1 & _ & (M0 & MB & _)). split.
  - unfold Qcdiv. apply mul_nonneg; [|apply Qclt_le_weak, inv_pos; exact PA]. rewrite E1.
    replace 0%Qc with (integral (fun _ => 0%Qc) cs) by (rewrite integral_const; ring). apply integral_le. intros c Hc. split; [auto|apply size_nonneg].
  - apply div_le. rewrite E1, <- HA, <- integral_const. apply integral_le. intros c Hc. split; [auto|]. apply size_le; apply MB; auto.
Qed.
Lemma l2_lI : (rl2 r / A <= rlI r * (rl1 r / A))%Qc.
Proof.
  destruct HD as (E1 & E2 & (M0 & MB & _)). apply div_le. replace (rlI r * (rl1 r / A) * A)%Qc with (rlI r * rl1 r + 0)%Qc by (field; apply A_nz).
  rewrite E1, E2. replace 0%Qc with (integral (fun _ => 0%Qc) cs) by (rewrite integral_const; ring). rewrite <- (integral_lin (rlI r) (fun c => size (off V c)) (fun _ => 0%Qc)).
  apply integral_le. intros c Hc. split; [auto|]. rewrite <- size_sq. apply le_minus.
  replace (rlI r * size (off V c) + 0 - size (off V c) * size (off V c))%Qc with (size (off V c) * (rlI r - size (off V c)))%Qc by ring.
  apply mul_nonneg; [apply size_nonneg|]. apply -> le_minus. apply size_le; apply MB; auto.
Qed.
Lemma l1_l2 : (rl1 r / A * (rl1 r / A) <= rl2 r / A)%Qc.
Proof.
  destruct HD as (E1 & E2 & _). set (u := (rl1 r / A)%Qc).
  assert (P : (0 <= integral (fun c => (size (off V c) - u) * (size (off V c) - u)) cs)%Qc).
  { replace 0%Qc with (integral (fun _ => 0%Qc) cs) by (rewrite integral_const; ring). apply integral_le. intros c Hc. split; [auto|apply sq_nonneg]. }
  rewrite (integral_ext _ (fun c => - (u + u) * size (off V c) + (1 * (off V c * off V c) + u * u))%Qc) in P by (intros c _; rewrite <- (size_sq (off V c)); ring).
  rewrite integral_lin, (integral_lin 1 (fun c => off V c * off V c)%Qc (fun _ => u * u)%Qc), integral_const, HA, <- E1, <- E2 in P.
  apply le_minus. replace (rl2 r / A - u * u)%Qc with (/ A * (- (u + u) * rl1 r + (1 * rl2 r + u * u * A)))%Qc by (unfold u; field; apply A_nz).
  apply mul_nonneg; [apply Qclt_le_weak, inv_pos; exact PA|exact P].
Qed.
End Order.

(** ** The areas of the cells add up *)
Lemma integral_row k (w : Qc) (x : Qc) (f g : nat -> Qc) : integral (fun _ => 1%Qc) (map (fun j => Spot w x (f j) (g j)) (seq 0 k)) = (Qc_of_nat k * w)%Qc.
Proof.
  induction k as [|k IH]; [change (Qc_of_nat 0) with 0%Qc; cbn [seq map]; change (integral (fun _ => 1%Qc) []) with 0%Qc; ring|].
  rewrite seq_S, map_app, integral_app, IH. cbn [map]. rewrite integral_cons. change (integral (fun _ => 1%Qc) []) with 0%Qc. cbn [s_area]. rewrite Qc_of_nat_S. ring.
Qed.
Lemma integral_rows k n (w : Qc) (X : nat -> Qc) (f g : nat -> nat -> Qc) :
  integral (fun _ => 1%Qc) (flat_map (fun i => map (fun j => Spot w (X i) (f i j) (g i j)) (seq 0 n)) (seq 0 k)) = (Qc_of_nat k * (Qc_of_nat n * w))%Qc.
Proof.
  induction k as [|k IH]; [change (Qc_of_nat 0) with 0%Qc; cbn [seq flat_map]; change (integral (fun _ => 1%Qc) []) with 0%Qc; ring|].
  rewrite seq_S, flat_map_app, integral_app, IH. cbn [flat_map]. rewrite app_nil_r, integral_row, Qc_of_nat_S. ring.
Qed.
Lemma leaf_area G u : gnx G <> 0 -> gny G <> 0 -> integral (fun _ => 1%Qc) (leaf_spots (G, u)) = ((gxu G - gxl G) * (gyu G - gyl G))%Qc.
Proof.
  intros Nx Ny. unfold leaf_spots. cbn [fst snd]. rewrite (integral_rows (gnx G) (gny G) _ (mid_x G) (fun _ j => mid_y G j) (fun i j => cell G u i j)).
  unfold width_x, width_y. field. split; apply Qc_of_nat_nz; auto.
Qed.

(** Both kinds of meshes: leaves that cut the rectangle. *)
Definition leaf_ok (G : grid) : Prop := gnx G <> 0 /\ gny G <> 0 /\ (gxl G <= gxu G)%Qc /\ (gyl G <= gyu G)%Qc.
Definition cuts (gs : list grid) (a : Qc) : Prop :=
  Forall leaf_ok gs /\ fold_right (fun G s => ((gxu G - gxl G) * (gyu G - gyl G) + s)%Qc) 0%Qc gs = a.
Lemma cuts_app g1 g2 a b : cuts g1 a -> cuts g2 b -> cuts (g1 ++ g2) (a + b)%Qc.
Proof.
  intros (A & B) (C & D). split; [rewrite Forall_app; auto|]. rewrite <- B, <- D. clear. induction g1 as [|G g1 IH]; cbn [app fold_right]; [ring|]. rewrite IH. ring.
Qed.

Lemma cuts_spots ps a : cuts (map pgrid ps) a ->
  integral (fun _ => 1%Qc) (spots (values ps)) = a /\ forall c, In c (spots (values ps)) -> (0 <= s_area c)%Qc.
Proof.
  intros (F & <-). induction ps as [|p ps IH]; cbn [map fold_right] in *; [split; [reflexivity|intros c []]|].
  inversion F as [|? ? (Nx & Ny & Hx & Hy) F']. subst. destruct (IH F') as (I1 & I2). clear IH. cbn [values map spots flat_map].
  split; [rewrite integral_app, leaf_area by auto; f_equal; exact I1|].
  intros c. rewrite in_app_iff. intros [H|H]; [|auto]. unfold leaf_spots in H. apply in_flat_map in H as (i & _ & H). apply in_map_iff in H as (j & <- & _).
  cbn [s_area fst]. apply mul_nonneg; unfold width_x, width_y, Qcdiv.
  - apply mul_nonneg; [apply -> le_minus; assumption|]. apply Qclt_le_weak, inv_pos. eapply Qclt_le_trans; [|apply (of_nat_le 1 (gnx (pgrid p))); lia]. reflexivity.
  - apply mul_nonneg; [apply -> le_minus; assumption|]. apply Qclt_le_weak, inv_pos. eapply Qclt_le_trans; [|apply (of_nat_le 1 (gny (pgrid p))); lia]. reflexivity.
Qed.

Lemma quarters_area G : ((gxu G - gxl G) * (gyu G - gyl G) =
  (fun f => f false false + (f true false + (f false true + f true true)))
  (fun e t => (gxu (quarter 0 G e t) - gxl (quarter 0 G e t)) * (gyu (quarter 0 G e t) - gyl (quarter 0 G e t))))%Qc.
Proof. cbn [quarter gxl gxu gyl gyu]. field. discriminate. Qed.

Lemma quarter_order n G e t : (gxl G < gxu G)%Qc -> (gyl G < gyu G)%Qc ->
  (gxl (quarter n G e t) < gxu (quarter n G e t))%Qc /\ (gyl (quarter n G e t) < gyu (quarter n G e t))%Qc.
Proof. intros Hx Hy. destruct (half_between _ _ Hx) as (X1 & X2), (half_between _ _ Hy) as (Y1 & Y2). destruct e, t; cbn [quarter gxl gxu gyl gyu]; auto. Qed.

Lemma tiled_cuts m : m <> 0 -> forall s G, (gxl G < gxu G)%Qc -> (gyl G < gyu G)%Qc -> tiled m G s ->
  cuts (map fst (leaves s)) ((gxu G - gxl G) * (gyu G - gyl G))%Qc.
Proof.
  intros Hm. induction s as [G' f|a IHa b IHb c IHc d IHd]; intros G Hx Hy; cbn [tiled leaves map].
  - intros (-> & _). split; [|cbn; ring]. repeat constructor; auto; apply Qclt_le_weak; auto.
  - intros (A & B & C & D). rewrite quarters_area, !map_app.
    apply (IHa _ (proj1 (quarter_order m G _ _ Hx Hy)) (proj2 (quarter_order m G _ _ Hx Hy))) in A.
    apply (IHb _ (proj1 (quarter_order m G _ _ Hx Hy)) (proj2 (quarter_order m G _ _ Hx Hy))) in B.
    apply (IHc _ (proj1 (quarter_order m G _ _ Hx Hy)) (proj2 (quarter_order m G _ _ Hx Hy))) in C.
    apply (IHd _ (proj1 (quarter_order m G _ _ Hx Hy)) (proj2 (quarter_order m G _ _ Hx Hy))) in D.
    cbv beta. repeat apply cuts_app; assumption.
Qed.
Lemma uniform_cuts m l : m <> 0 -> forall G s, (gxl G < gxu G)%Qc -> (gyl G < gyu G)%Qc -> gnx G = m * 2 ^ l -> gny G = m * 2 ^ l -> uniform m l G s ->
  cuts (map fst (leaves s)) ((gxu G - gxl G) * (gyu G - gyl G))%Qc /\ length (leaves s) = 4 ^ l.
Proof.
  intros Hm. induction l as [|l IH]; intros G [G' f|a b c d] Hx Hy Ex Ey; cbn [uniform leaves map]; try contradiction.
  - intros ->. split; [|reflexivity]. split; [|cbn; ring]. cbn [Nat.pow] in *. constructor; [|constructor]. cbn [fst]. split; [lia|]. split; [lia|]. split; apply Qclt_le_weak; auto.
  - intros (A & B & C & D). rewrite quarters_area, !map_app.
    assert (Q : forall e t s, uniform m l (quarter (m * 2 ^ l) G e t) s ->
      cuts (map fst (leaves s)) ((gxu (quarter 0 G e t) - gxl (quarter 0 G e t)) * (gyu (quarter 0 G e t) - gyl (quarter 0 G e t)))%Qc /\ length (leaves s) = 4 ^ l).
    { intros e t s HU. apply (IH (quarter (m * 2 ^ l) G e t) s); auto; try (apply quarter_order; auto). }
    apply Q in A as (A & A'). apply Q in B as (B & B'). apply Q in C as (C & C'). apply Q in D as (D & D').
    cbv beta. split; [repeat apply cuts_app; assumption|]. rewrite !app_length, A', B', C', D'. cbn [Nat.pow]. lia.
Qed.

(** ** The stages keep the grids of the leaves *)
Lemma fresh_grids load : forall s t, fresh load s t -> map pgrid (tree_leaves t) = map fst (leaves s).
Proof.
  induction s as [G f|a IHa b IHb c IHc d IHd]; intros [p|p ta tb tc td]; cbn [fresh]; try contradiction.
  - intros (E & _). cbn. congruence.
  - intros (_ & A & B & C & D). cbn [tree_leaves leaves]. rewrite !map_app, (IHa _ A), (IHb _ B), (IHc _ C), (IHd _ D). reflexivity.
Qed.
Lemma trel_grids_gen (R : bool -> patch -> patch -> Prop) : (forall p p', R true p p' -> pgrid p = pgrid p') -> forall t t', trel R t t' ->
  map pgrid (tree_leaves t) = map pgrid (tree_leaves t').
Proof.
  intros H. induction t as [p|p a IHa b IHb c IHc d IHd]; intros [p'|p' a' b' c' d']; cbn [trel]; try contradiction.
  - intros E. cbn. f_equal. auto.
  - intros (_ & A & B & C & D). cbn [tree_leaves]. rewrite !map_app, (IHa _ A), (IHb _ B), (IHc _ C), (IHd _ D). reflexivity.
Qed.
Lemma build_grids sv gesv cache st t st1 t1 : buildStage sv gesv cache st t = Ok (st1, t1) -> map pgrid (tree_leaves t1) = map pgrid (tree_leaves t).
Proof. intros E. apply build_leaf_grids in E. cbn [snd] in E. symmetry. eapply trel_grids_gen; [|exact E]. cbv beta. auto. Qed.
Lemma up_grids sv gesv hom load t t2 : upwardsStage sv gesv hom load t = Ok t2 -> map pgrid (tree_leaves t2) = map pgrid (tree_leaves t).
Proof. unfold upwardsStage. intros E. apply bind_inv in E as (r & E & E'). apply Ok_inj in E'. subst. symmetry. eapply trel_grids, up_keeps. exact E. Qed.
Lemma solve_grids sv g t t3 : solveStage sv false g t = Ok t3 -> map pgrid (tree_leaves t3) = map pgrid (tree_leaves t).
Proof. intros E. apply solveStage_keeps in E. symmetry. apply trel_grids. eapply trel_impl; [apply R2_R1|exact E]. Qed.
Lemma solve_fn_grids sv gesv a b r t t3 : solveStage_fn sv gesv false a b r t = Ok t3 -> map pgrid (tree_leaves t3) = map pgrid (tree_leaves t).
Proof. intros E. apply solve_fn_keeps in E. symmetry. apply trel_grids. exact E. Qed.
