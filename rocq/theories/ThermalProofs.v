(** One iteration of a time loop is one solve from scratch; the heat equation. *)
From Coq Require Import Lqa.
From Verif Require Import Base VectorModel MatrixModel LinSpec HPSModel HPSSpec StageSpec FVModel FVSpec GlobalSpec AdaptSpec CompareSpec MixSpec ThermalModel ThermalSpec.
From Verif Require Import MatProofs HPSProofs HPSProofs2 HPSProofs3 HPSTree HPSTree2 HPSHistory HPSStage2 HPSProps HPSSizes StageProps FVProofs FVProofs2 FVProofs3 FVMax FVJoin FVGlobal FVEnd FVCompare FVMixed MixProps.
From Coq Require Import Lia.

(** ** Loads that depend on the values in the same cell *)
Definition pointwise (phi : Qc -> Qc -> Qc -> Qc) (G : grid) (u : list Qc) : list Qc :=
  map (fun k => phi (mid_x G (k / gny G)) (mid_y G (k mod gny G)) (vval u k)) (seq 0 (gnx G * gny G)).

Lemma pointwise_length phi G u : length (pointwise phi G u) = gnx G * gny G.
Proof. unfold pointwise. rewrite map_length, seq_length. reflexivity. Qed.
Lemma pointwise_val phi G u i j : i < gnx G -> j < gny G ->
  vval (pointwise phi G u) (j + i * gny G) = phi (mid_x G i) (mid_y G j) (vval u (j + i * gny G)).
Proof.
  intros Hi Hj. unfold pointwise. rewrite map_seq_vec, vval_vec_of by nia.
  rewrite Nat.div_add, Nat.mod_add, Nat.div_small, Nat.mod_small by lia. reflexivity.
Qed.

Lemma pointwise_block phi n G u e t : n <> 0 -> gnx G = 2 * n -> gny G = 2 * n ->
  pointwise phi (quarter n G e t) (block n u e t) = block n (pointwise phi G u) e t.
Proof.
  intros Hn Ex Ey. unfold pointwise at 1. unfold block at 2. cbn [quarter gnx gny]. rewrite !map_seq_vec. apply vec_of_ext. intros k Hk. cbv zeta.
  pose proof (Nat.mod_upper_bound k n Hn) as Hm. assert (Hd : k / n < n) by (apply Nat.div_lt_upper_bound; auto).
  rewrite <- Ey, pointwise_val; [|destruct e; lia|destruct t; lia]. rewrite Ey.
  rewrite (quarter_mx n G Hn Ex), (quarter_my n G Hn Ey). unfold off.
  unfold block. rewrite map_seq_vec, vval_vec_of by auto. cbv zeta. reflexivity.
Qed.

(** ** The uniform tree with given loads *)
Fixpoint loaded (m l : nat) (G : grid) (F : list Qc) : qtree :=
  match l with
  | 0 => QLeaf G F
  | S l' => let n := m * 2 ^ l' in
      QNode (loaded m l' (quarter n G false false) (block n F false false)) (loaded m l' (quarter n G true false) (block n F true false))
            (loaded m l' (quarter n G false true) (block n F false true)) (loaded m l' (quarter n G true true) (block n F true true))
  end.
Lemma loaded_uniform m l : forall G F, uniform m l G (loaded m l G F).
Proof. induction l as [|l IH]; intros G F; cbn [loaded uniform]; auto. Qed.
Lemma loaded_loads m l : forall G F, leaf_loads (loaded m l G F) = scatter m l F.
Proof. induction l as [|l IH]; intros G F; cbn [loaded leaf_loads scatter]; [reflexivity|]. rewrite !IH. reflexivity. Qed.
Lemma leaves_length m l : forall G F, length (leaves (loaded m l G F)) = 4 ^ l.
Proof. induction l as [|l IH]; intros G F; cbn [loaded leaves]; [reflexivity|]. rewrite !app_length, !IH. cbn [Nat.pow]. lia. Qed.
Lemma uniform_grids m l F : forall G s, uniform m l G s -> map fst (leaves s) = map fst (leaves (loaded m l G F)).
Proof.
  revert F. induction l as [|l IH]; intros F G [G' f|a b c d]; cbn [uniform]; try contradiction; [intros ->; reflexivity|].
  intros (A & B & C & D). cbn [loaded leaves]. rewrite !map_app.
  rewrite (IH (block (m * 2 ^ l) F false false) _ _ A), (IH (block (m * 2 ^ l) F true false) _ _ B), (IH (block (m * 2 ^ l) F false true) _ _ C), (IH (block (m * 2 ^ l) F true true) _ _ D). reflexivity.
Qed.

(** Leaves lie inside the rectangle, so no two leaves have the same grid. *)
Definition inside (G G' : grid) : Prop :=
  (gxl G <= gxl G')%Qc /\ (gxl G' < gxu G')%Qc /\ (gxu G' <= gxu G)%Qc /\
  (gyl G <= gyl G')%Qc /\ (gyl G' < gyu G')%Qc /\ (gyu G' <= gyu G)%Qc.
Lemma half_between a b : (a < b)%Qc -> (a < (a + b) / (1 + 1))%Qc /\ ((a + b) / (1 + 1) < b)%Qc.
Proof.
  intros H. replace ((a + b) / (1 + 1))%Qc with ((a + b) * Q2Qc (1 # 2))%Qc by (field; discriminate).
  unfold Qclt in *. rewrite this_mult, this_plus. change (this (Q2Qc (1 # 2))) with (1 # 2)%Q. split; lra.
Qed.
Lemma loaded_inside m l : forall G F, (gxl G < gxu G)%Qc -> (gyl G < gyu G)%Qc -> Forall (inside G) (map fst (leaves (loaded m l G F))).
Proof.
  induction l as [|l IH]; intros G F Hx Hy; cbn [loaded leaves map fst].
  - repeat constructor; auto using Qcle_refl.
  - destruct (half_between _ _ Hx) as (X1 & X2), (half_between _ _ Hy) as (Y1 & Y2). rewrite !map_app.
    rewrite !Forall_app. split; [|split; [|split]]; match goal with |- Forall _ (map fst (leaves (loaded m l (quarter ?n G ?e ?t) ?F'))) =>
      eapply Forall_impl; [|apply (IH (quarter n G e t) F')]; cbn [quarter gxl gxu gyl gyu]; auto end;
    intros G' (A1 & A2 & A3 & A4 & A5 & A6); cbn [quarter gxl gxu gyl gyu] in *; repeat split; auto;
      eapply Qcle_trans; eauto; apply Qclt_le_weak; auto.
Qed.
Fixpoint find_load (z : list (grid * list Qc)) (d : list Qc) (x y : Qc) : list Qc :=
  match z with
  | [] => d
  | (G, f) :: z' => if Qc_eq_bool (gxl G) x && Qc_eq_bool (gyl G) y then f else find_load z' d x y
  end.
Definition corner (G : grid) : Qc * Qc := (gxl G, gyl G).
Lemma find_load_ok z d : NoDup (map (fun w => corner (fst w)) z) -> forall G f, In (G, f) z -> find_load z d (gxl G) (gyl G) = f.
Proof.
  induction z as [|[G0 f0] z IH]; intros ND G f HI; [destruct HI|]. cbn [map fst] in ND. inversion ND as [|? ? N1 N2]. subst.
  cbn [find_load]. destruct HI as [E|HI].
  - injection E as -> ->. unfold Qc_eq_bool. destruct (Qc_eq_dec (gxl G) (gxl G)); [|congruence]. destruct (Qc_eq_dec (gyl G) (gyl G)); [reflexivity|congruence].
  - unfold Qc_eq_bool. destruct (Qc_eq_dec (gxl G0) (gxl G)) as [E1|]; cbn [andb]; [|auto].
    destruct (Qc_eq_dec (gyl G0) (gyl G)) as [E2|]; [|auto]. exfalso. apply N1. unfold corner at 1. rewrite E1, E2.
    change (gxl G, gyl G) with ((fun w : grid * list Qc => corner (fst w)) (G, f)). apply in_map. exact HI.
Qed.
Lemma NoDup_app2 {A} (a b : list A) : NoDup a -> NoDup b -> (forall x, In x a -> In x b -> False) -> NoDup (a ++ b).
Proof.
  induction a as [|h a IH]; intros Na Nb H; [exact Nb|]. inversion Na. subst. cbn [app]. constructor.
  - rewrite in_app_iff. intros [HH|HH]; [auto|]. apply (H h); [left; reflexivity|exact HH].
  - apply IH; auto. intros x Hx. apply H. right. exact Hx.
Qed.
Lemma loaded_NoDup m l : forall G F, (gxl G < gxu G)%Qc -> (gyl G < gyu G)%Qc -> NoDup (map (fun w => corner (fst w)) (leaves (loaded m l G F))).
Proof.
  induction l as [|l IH]; intros G F Hx Hy; cbn [loaded leaves map fst]; [repeat constructor; intros []|].
  destruct (half_between _ _ Hx) as (X1 & X2), (half_between _ _ Hy) as (Y1 & Y2). rewrite !map_app.
  assert (I : forall e t F' x, In x (map (fun w => corner (fst w)) (leaves (loaded m l (quarter (m * 2 ^ l) G e t) F'))) ->
    (gxl (quarter (m * 2 ^ l) G e t) <= fst x)%Qc /\ (fst x < gxu (quarter (m * 2 ^ l) G e t))%Qc /\
    (gyl (quarter (m * 2 ^ l) G e t) <= snd x)%Qc /\ (snd x < gyu (quarter (m * 2 ^ l) G e t))%Qc).
  { intros e t F' x Hx'. apply in_map_iff in Hx' as (w & <- & Hw).
    assert (Q : inside (quarter (m * 2 ^ l) G e t) (fst w)).
    { pose proof (loaded_inside m l (quarter (m * 2 ^ l) G e t) F') as Q. rewrite Forall_forall in Q. apply Q; [destruct e; auto|destruct t; auto|]. apply in_map. exact Hw. }
    destruct Q as (A1 & A2 & A3 & A4 & A5 & A6). unfold corner. cbn [fst snd].
    repeat split; auto; eapply Qclt_le_trans; eauto. }
  assert (ND : forall e t F', NoDup (map (fun w => corner (fst w)) (leaves (loaded m l (quarter (m * 2 ^ l) G e t) F')))).
  { intros e t F'. apply IH; [destruct e; auto|destruct t; auto]. }
  repeat apply NoDup_app2; auto.
  all: intros x A B; rewrite ?in_app_iff in B; apply I in A as (A1 & A2 & A3 & A4); cbn [quarter gxl gxu gyl gyu] in *.
  all: repeat match type of B with _ \/ _ => destruct B as [B|B] end.
  all: apply I in B as (B1 & B2 & B3 & B4); first [exact (Qclt_not_le _ _ A2 B1)|exact (Qclt_not_le _ _ A4 B3)].
Qed.

Definition load_at (m l : nat) (G : grid) (F : list Qc) (G' : grid) : list Qc := find_load (leaves (loaded m l G F)) [] (gxl G') (gyl G').
Lemma load_at_ok m l G F : (gxl G < gxu G)%Qc -> (gyl G < gyu G)%Qc -> forall G' f, In (G', f) (leaves (loaded m l G F)) -> load_at m l G F G' = f.
Proof. intros Hx Hy G' f HI. unfold load_at. apply find_load_ok; auto. apply loaded_NoDup; auto. Qed.

Lemma fresh_other load load' m l : forall G s s' t, uniform m l G s -> uniform m l G s' -> fresh load s t ->
  (forall G' f, In (G', f) (leaves s') -> load' G' = f) -> fresh load' s' t.
Proof.
  induction l as [|l IH]; intros G [G0 f0|a b c d] [G1 f1|a' b' c' d'] [p|p ta tb tc td] U U' HF HL; cbn [uniform fresh] in *; try contradiction.
  - subst. destruct HF as (A & B & _). repeat split; auto. apply HL. left. reflexivity.
  - destruct U as (U1 & U2 & U3 & U4), U' as (V1 & V2 & V3 & V4), HF as (HP & F1 & F2 & F3 & F4). cbn [leaves] in HL.
    split; [exact HP|]. split; [|split; [|split]].
    + apply (IH _ _ _ _ U1 V1 F1). intros. apply HL. rewrite !in_app_iff. auto.
    + apply (IH _ _ _ _ U2 V2 F2). intros. apply HL. rewrite !in_app_iff. auto.
    + apply (IH _ _ _ _ U3 V3 F3). intros. apply HL. rewrite !in_app_iff. auto.
    + apply (IH _ _ _ _ U4 V4 F4). intros. apply HL. rewrite !in_app_iff. auto.
Qed.

(** ** A stage depends on what it finds in the leaves only *)
Lemma tmerge_leaves {St} (l1 l2 : St -> patch -> res (St * patch)) fam : forall t,
  (forall p, In p (tree_leaves t) -> forall st, l1 st p = l2 st p) -> forall st, tmerge l1 fam st t = tmerge l2 fam st t.
Proof.
  induction t as [p|p a IHa b IHb c IHc d IHd]; intros H st; cbn [tmerge]; [rewrite H by (left; reflexivity); reflexivity|].
  cbn [tree_leaves] in H.
  rewrite IHa by (intros; apply H; rewrite !in_app_iff; auto). destruct (tmerge l2 fam st a) as [ra| |]; auto. rewrite !bind_Ok.
  rewrite IHb by (intros; apply H; rewrite !in_app_iff; auto). destruct (tmerge l2 fam (fst ra) b) as [rb| |]; auto. rewrite !bind_Ok.
  rewrite IHc by (intros; apply H; rewrite !in_app_iff; auto). destruct (tmerge l2 fam (fst rb) c) as [rc| |]; auto. rewrite !bind_Ok.
  rewrite IHd by (intros; apply H; rewrite !in_app_iff; auto). reflexivity.
Qed.

Lemma solve_fn_rel sv gesv a b r t t' : trel (R2 false) t t' ->
  same (fun x x' => computed_values x = computed_values x') (solveStage_fn sv gesv false a b r t) (solveStage_fn sv gesv false a b r t').
Proof.
  intros HR. destruct (trel_data _ _ _ HR) as (D & L). pose proof D as (O & F). destruct (F eq_refl) as (Eh & _).
  destruct (ops_inj _ _ O) as (EG & _ & _ & ET & _). unfold solveStage_fn.
  assert (ER : root_data gesv a b r (data t) = root_data gesv a b r (data t')) by (unfold root_data; rewrite EG, Eh, ET; reflexivity).
  rewrite ER. destruct (root_data gesv a b r (data t')) as [g| |]; [|exact eq_refl|exact I]. rewrite !bind_Ok.
  apply solve_rel; [exact HR|exact D|reflexivity].
Qed.
Lemma solve_fn_keeps sv gesv a b r t x : solveStage_fn sv gesv false a b r t = Ok x -> trel R1 t x.
Proof.
  unfold solveStage_fn. intros E. apply bind_inv in E as (g & _ & E). eapply trel_impl; [apply R2_R1|]. eapply solve_keeps; [|exact E].
  destruct (is_leaf t); (split; [reflexivity|]; intros _; split; reflexivity).
Qed.

Lemma trel_grids t : forall t', trel R1 t t' -> map pgrid (tree_leaves t) = map pgrid (tree_leaves t').
Proof.
  induction t as [p|p a IHa b IHb c IHc d IHd]; intros [p'|p' a' b' c' d']; cbn [trel]; try contradiction.
  - intros O. destruct (ops_inj _ _ O) as (E & _). cbn. congruence.
  - intros (_ & A & B & C & D). cbn [tree_leaves]. rewrite !map_app. rewrite (IHa _ A), (IHb _ B), (IHc _ C), (IHd _ D). reflexivity.
Qed.
Lemma built_grids m sv : forall s k t, built m sv k s t -> map pgrid (tree_leaves t) = map fst (leaves s).
Proof.
  induction s as [G f|a IHa b IHb c IHc d IHd]; intros k [p|p ta tb tc td]; cbn [built]; try contradiction.
  - intros (_ & E & _). cbn. congruence.
  - intros (A & B & C & D & _). cbn [tree_leaves leaves]. rewrite !map_app. rewrite (IHa _ _ A), (IHb _ _ B), (IHc _ _ C), (IHd _ _ D). reflexivity.
Qed.

(** The values of the leaves are those of the whole, so are the loads. *)
Lemma leaf_pointwise phi m l : m <> 0 -> forall G U F ps, gnx G = m * 2 ^ l -> gny G = m * 2 ^ l -> length U = gnx G * gny G ->
  map pgrid ps = map fst (leaves (loaded m l G F)) -> map pu ps = scatter m l U ->
  Forall2 (fun p z => pgrid p = fst z /\ gnx (fst z) = m /\ gny (fst z) = m /\ length (pu p) = m * m /\ snd z = pointwise phi (fst z) (pu p))
    ps (leaves (loaded m l G (pointwise phi G U))).
Proof.
  intros Hm. induction l as [|l IH]; intros G U F ps Ex Ey LU EG EU.
  - cbn [loaded leaves map fst scatter Nat.pow] in *. destruct ps as [|p [|q ps]]; try discriminate. injection EG as EG. injection EU as EU.
    constructor; [|constructor]. cbn [fst snd]. rewrite Nat.mul_1_r in Ex, Ey. rewrite EU, LU, Ex, Ey. auto.
  - cbn [loaded leaves scatter] in *. set (n := m * 2 ^ l) in *. rewrite !map_app in EG.
    assert (En : m * 2 ^ S l = 2 * n) by (unfold n; cbn [Nat.pow]; lia). rewrite En in Ex, Ey.
    assert (Nn : n <> 0) by (apply pow_nz; auto).
    assert (LG : forall G' F', length (map fst (leaves (loaded m l G' F'))) = 4 ^ l) by (intros; rewrite map_length; apply leaves_length).
    assert (SP : forall (qs : list patch) A B C D, map pgrid qs = A ++ B -> map pu qs = C ++ D -> length A = 4 ^ l -> length C = 4 ^ l ->
      exists q1 q2, qs = q1 ++ q2 /\ map pgrid q1 = A /\ map pgrid q2 = B /\ map pu q1 = C /\ map pu q2 = D).
    { intros qs A B C D E1 E2 LA LC. exists (firstn (4 ^ l) qs), (skipn (4 ^ l) qs). rewrite firstn_skipn. split; [reflexivity|].
      rewrite <- (firstn_skipn (4 ^ l) qs), map_app in E1, E2.
      assert (LQ : 4 ^ l <= length qs).
      { assert (Q := f_equal (@length _) E1). rewrite app_length, !map_length, app_length, LA in Q. rewrite <- (firstn_skipn (4 ^ l) qs), app_length. lia. }
      apply app_split in E1 as (-> & ->); [|rewrite map_length, firstn_length, LA; lia].
      apply app_split in E2 as (-> & ->); [auto|rewrite map_length, firstn_length, LC; lia]. }
    destruct (SP _ _ _ _ _ EG EU) as (q1 & r1 & -> & G1 & GR & U1 & UR); [apply LG|apply scatter_length|].
    destruct (SP _ _ _ _ _ GR UR) as (q2 & r2 & -> & G2 & GR2 & U2 & UR2); [apply LG|apply scatter_length|].
    destruct (SP _ _ _ _ _ GR2 UR2) as (q3 & q4 & -> & G3 & G4 & U3 & U4); [apply LG|apply scatter_length|].
    rewrite <- !(pointwise_block phi n G U) by auto.
    repeat apply Forall2_app; (eapply IH; [reflexivity|reflexivity|apply block_length| |]; eauto).
Qed.

Lemma leaf_const m l : m <> 0 -> forall G F F' ps, gnx G = m * 2 ^ l -> gny G = m * 2 ^ l -> 
  map pgrid ps = map fst (leaves (loaded m l G F')) -> F = zeros (gnx G * gny G) ->
  Forall2 (fun p z => pgrid p = fst z /\ gnx (fst z) = m /\ gny (fst z) = m /\ snd z = zeros (m * m)) ps (leaves (loaded m l G F)).
Proof.
  intros Hm. induction l as [|l IH]; intros G F F' ps Ex Ey EG ->.
  - cbn [loaded leaves map fst Nat.pow] in *. destruct ps as [|p [|q ps]]; try discriminate. injection EG as EG.
    constructor; [|constructor]. cbn [fst snd]. rewrite Nat.mul_1_r in Ex, Ey. rewrite Ex, Ey. auto.
  - cbn [loaded leaves] in *. set (n := m * 2 ^ l) in *. rewrite !map_app in EG.
    assert (En : m * 2 ^ S l = 2 * n) by (unfold n; cbn [Nat.pow]; lia). rewrite En in Ex, Ey.
    assert (LG : forall G' F', length (map fst (leaves (loaded m l G' F'))) = 4 ^ l) by (intros; rewrite map_length; apply leaves_length).
    assert (SP : forall (qs : list patch) A B, map pgrid qs = A ++ B -> length A = 4 ^ l ->
      exists q1 q2, qs = q1 ++ q2 /\ map pgrid q1 = A /\ map pgrid q2 = B).
    { intros qs A B E1 LA. exists (firstn (4 ^ l) qs), (skipn (4 ^ l) qs). rewrite firstn_skipn. split; [reflexivity|].
      rewrite <- (firstn_skipn (4 ^ l) qs), map_app in E1.
      assert (LQ : 4 ^ l <= length qs).
      { assert (Q := f_equal (@length _) E1). rewrite app_length, !map_length, app_length, LA in Q. rewrite <- (firstn_skipn (4 ^ l) qs), app_length. lia. }
      apply app_split in E1 as (-> & ->); [auto|rewrite map_length, firstn_length, LA; lia]. }
    destruct (SP _ _ _ EG) as (q1 & r1 & -> & G1 & GR); [apply LG|].
    destruct (SP _ _ _ GR) as (q2 & r2 & -> & G2 & GR2); [apply LG|].
    destruct (SP _ _ _ GR2) as (q3 & q4 & -> & G3 & G4); [apply LG|].
    assert (ZB : forall e t, block n (zeros (gnx G * gny G)) e t = zeros (n * n)).
    { intros e t. unfold block. rewrite map_seq_vec. unfold zeros at 2. rewrite (repeat_vec (Q2Qc 0) (n * n)). apply vec_of_ext. intros. cbv zeta. apply (vval_zeros (gnx G * gny G)). }
    repeat apply Forall2_app; (eapply IH; [reflexivity|reflexivity|eauto|apply ZB]).
Qed.

(** ** One iteration *)
Section Step.
Context (m : nat) (Hm : m <> 0) (c : coefs) (HS : right_signs c).
Context (solve : grid -> list Qc -> list Qc -> res (list Qc)).
Context (Hsolve : forall G, oriented G -> gnx G = m -> gny G = m -> forall g f, length g = 4 * m -> length f = m * m ->
  exists u, solve G g f = Ok u /\ fv_solution c G g f u).
Context (l : nat) (gesv : gesv_t) (load0 : grid -> list Qc) (xl xu yl yu : Qc) (s : qtree) (t : tree) (st : option (matrix Qc)).
Context (HG : gesv_contract gesv) (Hx : (xl < xu)%Qc) (Hy : (yl < yu)%Qc).
Notation N := (m * 2 ^ l).
Notation G := (whole m l xl xu yl yu).
Notation sv := (solver_of solve).
Context (HU : uniform m l G s) (HF : fresh load0 s t).
Context (st1 : option (matrix Qc)) (t1 : tree) (HB : buildStage sv gesv false st t = Ok (st1, t1)).

Lemma step_grids F : map pgrid (tree_leaves t1) = map fst (leaves (loaded m l G F)).
Proof.
  pose proof (whole_oriented m Hm l xl xu yl yu Hx Hy) as HO.
  set (Z := zeros (N * N)). set (s' := loaded m l G Z).
  assert (HU' : uniform m l G s') by apply loaded_uniform.
  assert (HF' : fresh (load_at m l G Z) s' t) by (apply (fresh_other load0 _ m l G s s' t HU HU' HF); apply load_at_ok; auto).
  assert (HLd : loads (fun f => f) m l Z s') by (eapply loads_id; eauto; apply loaded_loads).
  assert (Good := uniform_good m Hm c HS solve Hsolve l G s' Z eq_refl eq_refl HO HU' HLd (zeros_length _)).
  assert (Posed := uniform_posed m Hm c HS solve Hsolve l G s' eq_refl eq_refl HO HU').
  destruct (build_ok m sv gesv (load_at m l G Z) s' t (build_leaf sv false) st Hm HG (build_leaf_off sv m) HF' Good Posed) as (st1' & t1' & E1' & B1); [right; eapply uniform_equal; eauto|].
  unfold buildStage in HB. rewrite HB in E1'. injection E1' as <- <-.
  rewrite (built_grids _ _ _ _ _ B1). apply uniform_grids. exact HU'.
Qed.

Theorem one_step cb tn F a b r : admissible c N G a b -> trel R1 t1 tn -> length F = N * N ->
  Forall2 (fun p z => pgrid p = fst z /\ cb p = Ok (snd z)) (tree_leaves tn) (leaves (loaded m l G F)) ->
  exists t2 t3 u g,
    upwardsStage_cb sv gesv false cb tn = Ok t2 /\ solveStage_fn sv gesv false a b r t2 = Ok t3 /\ trel R1 t1 t3 /\
    map pu (tree_leaves t3) = scatter m l u /\ length g = 4 * N /\
    fv_solution c G g F u /\ mixed_condition N G a b r g (boundary_flux G g u).
Proof.
  intros HA HR LF HC. set (L := load_at m l G F). set (s' := loaded m l G F).
  assert (LA : forall G' f, In (G', f) (leaves s') -> L G' = f) by (apply load_at_ok; auto).
  assert (HU' : uniform m l G s') by apply loaded_uniform.
  assert (HF' : fresh L s' t) by (apply (fresh_other load0 _ m l G s s' t HU HU' HF); exact LA).
  destruct (end_mixed m Hm c HS solve Hsolve l gesv L xl xu yl yu s' t st F HG Hx Hy HU' HF' (loaded_loads _ _ _ _) LF a b r HA)
    as (st1' & t1' & t2' & t3' & u & g & E1 & E2 & E3 & E4 & E5 & E6 & E7).
  rewrite HB in E1. injection E1 as <- <-.
  assert (EU : upwardsStage_cb sv gesv false cb tn = upwardsStage sv gesv false L tn).
  { unfold upwardsStage_cb, upwardsStage. f_equal. apply tmerge_leaves. intros p Hp sx. unfold up_leaf_cb, up_leaf. cbv zeta. cbn [pgrid pf set_f].
    assert (Q : exists z, In z (leaves s') /\ pgrid p = fst z /\ cb p = Ok (snd z)).
    { fold s' in HC. clear - HC Hp. revert HC Hp. generalize (leaves s') (tree_leaves tn). intros zs0 ps0 HC. induction HC as [|q z qs zs HQ HC IH]; [intros []|]. intros [->|Hp].
      - exists z. split; [left; reflexivity|exact HQ].
      - destruct (IH Hp) as (w & W1 & W2). exists w. split; [right; exact W1|exact W2]. }
    destruct Q as ([G' f] & Q1 & Q2 & Q3). cbn [fst snd] in Q2, Q3. rewrite Q3, bind_Ok, Q2, (LA _ _ Q1). reflexivity. }
  pose proof (up_rel sv gesv false L t1 tn HR) as RU. unfold upwardsStage in E2, EU.
  apply bind_inv in E2 as (x1 & X1 & X2). apply Ok_inj in X2. subst t2'. rewrite X1 in RU.
  destruct (tmerge _ _ _ tn) as [y1| |] eqn:Y1; try contradiction. cbn [same] in RU. rewrite bind_Ok in EU.
  pose proof (solve_fn_rel sv gesv a b r _ _ RU) as RS. rewrite E3 in RS.
  destruct (solveStage_fn sv gesv false a b r (snd y1)) as [t3| |] eqn:Y3; try contradiction. cbn [same] in RS.
  exists (snd y1), t3, u, g. split; [exact EU|]. split; [exact Y3|]. split.
  { eapply trel_trans; [apply R1_trans|exact HR|]. eapply trel_trans; [apply R1_trans|eapply up_keeps; exact Y1|eapply solve_fn_keeps; exact Y3]. }
  split; [|auto]. rewrite <- E4, RS. unfold computed_values. rewrite map_map. reflexivity.
Qed.
End Step.
