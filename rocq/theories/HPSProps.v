(** Merging, upward and downward pass on one family, and the whole solver. *)
From Verif Require Import Base VectorModel MatrixModel LinSpec HPSModel HPSSpec.
From Verif Require Import MatProofs MatProofs2 LinProofs Gauss LinProps BlockProofs.
From Verif Require Import HPSProofs HPSProofs2 HPSProofs3 HPSProofs4 HPSTree HPSTree2 HPSCert.

(** A patch solver for the concrete cases: all boundary values and the load
    influence every flux. *)
Definition toy_sign (k : nat) : Qc := if Nat.even k then (- (1))%Qc else 1%Qc.
Definition toy_T (m : nat) : matrix Qc :=
  mat_of (4 * m) (4 * m) (fun i j => toy_sign (i / m) * (if i =? j then Qc_of_nat (4 * m) else - (1)))%Qc.
Definition toy_h (m : nat) (f : list Qc) : list Qc :=
  vec_of (4 * m) (fun i => Qc_of_nat (i + 1) * sum (m * m) (fun k => Qc_of_nat k * vval f k))%Qc.
Definition toy_u (m : nat) (g f : list Qc) : list Qc :=
  vec_of (m * m) (fun i => vval f i + sum (4 * m) (fun k => Qc_of_nat (i + k) * vval g k))%Qc.
Definition toy (m : nat) : solver :=
  Solver (fun G g f => Ok (toy_u m g f))
         (fun G g f => Ok (vplus (apply_op (toy_T m) g) (toy_h m f)))
         (fun G => Ok (toy_T m)) (fun G f => Ok (toy_h m f)).

Lemma toy_square m : square (4 * m) (toy_T m).
Proof. split; [apply mat_of_wf|split; reflexivity]. Qed.

Lemma toy_affine m G : gnx G = m -> gny G = m -> affine_solver m (toy m) G.
Proof.
  intros Ex Ey. split; auto. exists (toy_T m). split; [reflexivity|]. split; [apply toy_square|].
  intros f Lf. exists (toy_h m f). split; [reflexivity|]. split; [apply vec_of_length|].
  intros g Lg. split; [eexists; reflexivity|reflexivity].
Qed.

Definition ex_grid (m : nat) (x y w : Qc) : grid := Grid m m x (x + w) y (y + w).
Definition no_mat : matrix Qc := Mat 0 0 [].
Definition ex_patch (G : grid) (T : matrix Qc) (h : list Qc) : patch :=
  Patch G no_mat no_mat no_mat T [] [] [] h [] 0.
Definition ex_four (m : nat) : four patch :=
  let p x y := ex_patch (ex_grid m x y 1) (toy_T m) (toy_h m (vec_of (m * m) (fun k => (x + y + y + Qc_of_nat k)%Qc))) in
  Four (p 0%Qc 0%Qc) (p 1%Qc 0%Qc) (p 0%Qc 1%Qc) (p 1%Qc 1%Qc).
Definition ex_tau : patch := ex_patch (Grid 0 0 0 0 0 0) no_mat [].

(** A freshly created tree on a quadtree. *)
Fixpoint fresh_tree (s : qtree) : tree :=
  match s with
  | QLeaf G _ => Leaf (ex_patch G no_mat [])
  | QNode a b c d => Node ex_tau (fresh_tree a) (fresh_tree b) (fresh_tree c) (fresh_tree d)
  end.
Definition ex_load (m : nat) (G : grid) : list Qc :=
  vec_of (m * m) (fun k => (gxl G + gyl G + gyl G + Qc_of_nat k)%Qc).
Definition ex_leaf (m : nat) (x y w : Qc) : qtree := QLeaf (ex_grid m x y w) (ex_load m (ex_grid m x y w)).
Definition half : Qc := Q2Qc (1 # 2).
(** The lower left quarter is refined once more. *)
Definition ex_tree (m : nat) : qtree :=
  QNode (QNode (ex_leaf m 0 0 half) (ex_leaf m half 0 half) (ex_leaf m 0 half half) (ex_leaf m half half half))
        (ex_leaf m 1 0 1) (ex_leaf m 0 1 1) (ex_leaf m 1 1 1).

Lemma ex_tree_fresh m : fresh (ex_load m) (ex_tree m) (fresh_tree (ex_tree m)).
Proof. cbn. repeat split. Qed.
Lemma ex_tree_good m : good_leaves m (toy m) (ex_tree m).
Proof.
  cbn [ex_tree ex_leaf good_leaves]. unfold ex_load.
  repeat (split; try apply vec_of_length; try (apply toy_affine; reflexivity)).
Qed.

Lemma wp_by_cert m sv load s t :
  m <> 0 -> fresh load s t -> good_leaves m sv s -> 3 <= m \/ equal_levels s ->
  match buildStage sv gauss_gesv false None t with Ok (_, t1) => cert t1 | _ => false end = true ->
  well_posed m sv s.
Proof.
  intros Hm HF HG H3 H.
  destruct (buildStage sv gauss_gesv false None t) as [(st1, t1)| |] eqn:E; try discriminate H.
  exact (cert_ok m sv gauss_gesv load s t None st1 t1 Hm gauss_gesv_contract HF HG H3 E H).
Qed.

Lemma ex_tree_wp : well_posed 3 (toy 3) (ex_tree 3).
Proof.
  apply (wp_by_cert 3 (toy 3) (ex_load 3) (ex_tree 3) (fresh_tree (ex_tree 3)));
    [discriminate|apply ex_tree_fresh|apply ex_tree_good|auto|].
  vm_cast_no_check (eq_refl true).
Qed.

Lemma unique_by_merge gesv tau n ch : n <> 0 -> all4 (fun p => psize p = n) ch ->
  all4 (square (4 * n)) (fmap pT ch) ->
  match merge_rest gesv tau ch with Ok t => nonsing_b (pX t) | _ => false end = true ->
  interface_unique n (fmap pT ch).
Proof.
  intros Hn Hs HT H. destruct (merge_rest gesv tau ch) as [t| |] eqn:E; try discriminate H.
  pose proof (merge_X gesv tau ch n t Hn Hs HT E) as BX.
  apply (interface_from_X n _ _ HT BX). apply nonsing_b_ok; [apply BX| |exact H].
  rewrite (isB_nr _ _ _ _ _ BX), (isB_nc _ _ _ _ _ BX). reflexivity.
Qed.

Lemma ex_four_unique : interface_unique 2 (fmap pT (ex_four 2)).
Proof.
  apply (unique_by_merge gauss_gesv ex_tau); [discriminate|repeat split| |].
  - unfold all4, fmap. cbn [fa fb fc fd ex_four ex_patch pT]. split4; apply toy_square.
  - vm_cast_no_check (eq_refl true).
Qed.

Lemma resolved_fun k n T T1 T2 : resolved k n T T1 -> resolved k n T T2 -> T1 = T2.
Proof.
  intros (S1 & R1) (S2 & R2). apply (apply_ext_eq (4 * n)); auto. intros g Lg. rewrite R1, R2; auto.
Qed.

(** [C16] After merging four siblings of any resolutions that meet at side n, the
    interface values S g computed from any boundary data g of the parent make the
    fluxes on both sides of each of the four interfaces equal, and no other
    interface values do.  [Tc] are the children's operators at side n. *)
Lemma merge_flux_continuous_pf : forall gesv tau ch n k Tc,
  gesv_contract gesv -> n <> 0 -> levels_ok n k -> children_ok n ch k ->
  resolved4 k n (fmap pT ch) Tc -> interface_unique n Tc ->
  exists tau' ch', merge4to1 gesv tau ch = Ok (tau', ch') /\ fmap pT ch' = Tc /\
    nr (pS tau') = 4 * n /\ nc (pS tau') = 8 * n /\
    forall g, length g = 8 * n ->
      continuous n (fluxes Tc (children_data n g (apply_op (pS tau') g))) /\
      forall z, length z = 4 * n -> continuous n (fluxes Tc (children_data n g z)) ->
        z = apply_op (pS tau') g.
Proof.
  intros gesv tau ch n k Tc Hg Hn Hk (A & B & C & D) (RA & RB & RC & RD) HU.
  destruct (family_build gesv tau ch n k Hg Hn Hk A B C D) as (Tc' & X & S & H & T & E & QA & QB & QC & QD & HF & _).
  { intros T' TA TB TC TD. replace T' with Tc; [auto|].
    destruct T' as [x1 x2 x3 x4], Tc as [y1 y2 y3 y4]. cbn [fa fb fc fd fmap] in *. f_equal; eapply resolved_fun; eassumption. }
  assert (Tc' = Tc) as ->.
  { destruct Tc' as [x1 x2 x3 x4], Tc as [y1 y2 y3 y4]. cbn [fa fb fc fd fmap] in *. f_equal; eapply resolved_fun; eassumption. }
  cbv zeta in E. eexists; eexists. split; [exact E|]. cbn [pS set_grid set_T set_S].
  destruct (fo_S _ _ _ _ _ HF) as (_ & NS & CS).
  split; [destruct Tc; reflexivity|]. split; [exact NS|]. split; [exact CS|]. intros g Lg.
  split; [apply (fo_cont _ _ _ _ _ HF); auto|]. intros z Lz Cz.
  assert (Sq : all4 (square (4 * n)) Tc) by (split4; [apply RA|apply RB|apply RC|apply RD]).
  apply (interface_solution_unique n Tc (zero4 (4 * n)) g); auto.
  - unfold all4, zero4. cbn [fa fb fc fd]. rewrite !zeros_length. auto.
  - rewrite apply_op_length. auto.
  - rewrite (total_fluxes_zero n Tc _ Sq). exact Cz.
  - rewrite (total_fluxes_zero n Tc _ Sq). apply (fo_cont _ _ _ _ _ HF). auto.
Qed.

(** [C17] The parent's operator applied to any boundary data g returns the fluxes
    of the children on the outer boundary, for the interface values that make the
    fluxes continuous. *)
Lemma merged_operator_pf : forall gesv tau ch n k Tc,
  gesv_contract gesv -> n <> 0 -> levels_ok n k -> children_ok n ch k ->
  resolved4 k n (fmap pT ch) Tc -> interface_unique n Tc ->
  exists tau' ch', merge4to1 gesv tau ch = Ok (tau', ch') /\ square (8 * n) (pT tau') /\
    gnx (pgrid tau') = 2 * n /\
    forall g z, length g = 8 * n -> length z = 4 * n ->
      continuous n (fluxes Tc (children_data n g z)) ->
      apply_op (pT tau') g = outer_flux n (fluxes Tc (children_data n g z)).
Proof.
  intros gesv tau ch n k Tc Hg Hn Hk (A & B & C & D) (RA & RB & RC & RD) HU.
  destruct (family_build gesv tau ch n k Hg Hn Hk A B C D) as (Tc' & X & S & H & T & E & QA & QB & QC & QD & HF & _).
  { intros T' TA TB TC TD. replace T' with Tc; [auto|].
    destruct T' as [x1 x2 x3 x4], Tc as [y1 y2 y3 y4]. cbn [fa fb fc fd fmap] in *. f_equal; eapply resolved_fun; eassumption. }
  assert (Tc' = Tc) as ->.
  { destruct Tc' as [x1 x2 x3 x4], Tc as [y1 y2 y3 y4]. cbn [fa fb fc fd fmap] in *. f_equal; eapply resolved_fun; eassumption. }
  cbv zeta in E. eexists; eexists. split; [exact E|]. cbn [pT set_grid set_T pgrid gnx].
  split; [apply HF|]. split; [lia|]. intros g z Lg Lz Cz.
  destruct (fo_S _ _ _ _ _ HF) as (_ & NS & CS).
  assert (Sq : all4 (square (4 * n)) Tc) by (split4; [apply RA|apply RB|apply RC|apply RD]).
  assert (z = apply_op S g) as ->.
  { apply (interface_solution_unique n Tc (zero4 (4 * n)) g); auto.
    - unfold all4, zero4. cbn [fa fb fc fd]. rewrite !zeros_length. auto.
    - rewrite apply_op_length. auto.
    - rewrite (total_fluxes_zero n Tc _ Sq). exact Cz.
    - rewrite (total_fluxes_zero n Tc _ Sq). apply (fo_cont _ _ _ _ _ HF). auto. }
  apply (fo_flux _ _ _ _ _ HF). auto.
Qed.

(** The hypotheses of the two theorems above hold for four equal patches of side
    2; the merged operator is computed, here applied to data that is 1 on the
    first boundary cell. *)
Lemma merge_example_expf :
  gesv_contract gauss_gesv /\ levels_ok 2 (Four 0 0 0 0) /\ children_ok 2 (ex_four 2) (Four 0 0 0 0) /\
  resolved4 (Four 0 0 0 0) 2 (fmap pT (ex_four 2)) (fmap pT (ex_four 2)) /\
  interface_unique 2 (fmap pT (ex_four 2)) /\
  match merge4to1 gauss_gesv ex_tau (ex_four 2) with
  | Ok (t, _) => firstn 4 (apply_op (pT t) (basis 16 0))
  | _ => [] end = map Q2Qc [-268 # 35; 47 # 35; 1 # 5; 1 # 5].
Proof.
  split; [exact gauss_gesv_contract|]. split; [split; [reflexivity|auto]|].
  split; [unfold children_ok; split4; (split; [reflexivity|]; split; [reflexivity|]; apply toy_square)|].
  split; [unfold resolved4; split4; apply resolved_0; apply toy_square|].
  split; [exact ex_four_unique|]. qcompute.
Qed.

(** [C18] After the upwards step on a merged family, with zero boundary data the
    interface values w make the total fluxes (operator part plus load part)
    continuous, and the parent's h collects the outer fluxes.  [tau2] and [ch2]
    carry the operators left by the merge and any load fluxes. *)
Lemma upwards_particular_pf : forall gesv tau ch n k Tc tau' ch' tau2 ch2,
  gesv_contract gesv -> n <> 0 -> levels_ok n k -> children_ok n ch k ->
  resolved4 k n (fmap pT ch) Tc -> interface_unique n Tc ->
  merge4to1 gesv tau ch = Ok (tau', ch') ->
  pH tau2 = pH tau' -> fmap pT ch2 = fmap pT ch' -> fmap pnc ch2 = fmap pnc ch' ->
  fmap pgrid ch2 = fmap pgrid ch' ->
  all4 (fun p => length (ph p) = 4 * gnx (pgrid p)) ch2 ->
  let hc := Four (coarsen_by (fa k) n (ph (fa ch2))) (coarsen_by (fb k) n (ph (fb ch2)))
                 (coarsen_by (fc k) n (ph (fc ch2))) (coarsen_by (fd k) n (ph (fd ch2))) in
  exists tau3 ch3, upwards4to1 gesv false tau2 ch2 = Ok (tau3, ch3) /\
    length (pw tau3) = 4 * n /\
    continuous n (total_fluxes Tc hc (children_data n (zeros (8 * n)) (pw tau3))) /\
    ph tau3 = outer_flux n (total_fluxes Tc hc (children_data n (zeros (8 * n)) (pw tau3))) /\
    fmap ph ch3 = hc /\ fmap pT ch3 = Tc /\ pT tau3 = pT tau2 /\ pS tau3 = pS tau2.
Proof.
  intros gesv tau ch n k Tc tau' ch' tau2 ch2 Hg Hn Hk (A & B & C & D) (RA & RB & RC & RD) HU EM EH ET EN EG Lh hc.
  destruct (family_build gesv tau ch n k Hg Hn Hk A B C D) as (Tc' & X & S & H & T & E & QA & QB & QC & QD & HF & _).
  { intros T' TA TB TC TD. replace T' with Tc; [auto|].
    destruct T' as [x1 x2 x3 x4], Tc as [y1 y2 y3 y4]. cbn [fa fb fc fd fmap] in *. f_equal; eapply resolved_fun; eassumption. }
  assert (Tc' = Tc) as ->.
  { destruct Tc' as [x1 x2 x3 x4], Tc as [y1 y2 y3 y4]. cbn [fa fb fc fd fmap] in *. f_equal; eapply resolved_fun; eassumption. }
  cbv zeta in E. rewrite E in EM. apply Ok_inj in EM. injection EM as <- <-.
  unfold fmap in ET, EN, EG.
  cbn [fmap fa fb fc fd pT pnc pgrid pH set_T set_nc set_grid set_S set_H] in ET, EN, EG, EH.
  injection ET as ETa ETb ETc ETd. injection EN as ENa ENb ENc ENd. injection EG as EGa EGb EGc EGd.
  destruct A as (_ & GA & _), B as (_ & GB & _), C as (_ & GC & _), D as (_ & GD & _).
  destruct Lh as (La & Lb & Lc & Ld).
  assert (HT : four_T ch2 = Tc) by (unfold four_T, fmap; rewrite ETa, ETb, ETc, ETd; destruct Tc; reflexivity).
  destruct (family_up gesv tau2 ch2 n Hg Hn) as (X' & w & h & EU & Lw & Lh' & Cw & Eh).
  - rewrite EGa in La. rewrite EGb in Lb. rewrite EGc in Lc. rewrite EGd in Ld.
    split4; rewrite ?ENa, ?ENb, ?ENc, ?ENd, ?EGa, ?EGb, ?EGc, ?EGd, ?ETa, ?ETb, ?ETc, ?ETd,
      ?La, ?Lb, ?Lc, ?Ld, ?GA, ?GB, ?GC, ?GD; (split; [reflexivity|]; split; [reflexivity|]).
    + apply RA. + apply RB. + apply RC. + apply RD.
  - rewrite HT. auto.
  - rewrite HT, EH. apply HF.
  - rewrite HT in Cw, Eh. unfold fmap in *. cbn [fa fb fc fd] in *.
    rewrite ENa, ENb, ENc, ENd in *.
    eexists; eexists. split; [exact EU|]. cbn [pw set_h set_w ph pT pS set_X fa fb fc fd].
    split; [exact Lw|]. split; [exact Cw|]. split; [exact Eh|].
    split; [reflexivity|]. split; [|auto]. rewrite <- HT. reflexivity.
Qed.

Lemma upwards_example_expf :
  match merge4to1 gauss_gesv ex_tau (ex_four 2) with
  | Ok (t, ch) => all4 (fun p => length (ph p) = 4 * gnx (pgrid p)) ch /\
      match upwards4to1 gauss_gesv false t ch with
      | Ok (t3, _) => map this (firstn 3 (pw t3)) = [199 # 105; 269 # 105; 109 # 105] /\
                      length (ph t3) = 16
      | _ => False
      end
  | _ => False end.
Proof. vm_compute. repeat split. Qed.

(** [C19] When a parent is split, every child's outer boundary data is the
    matching piece of the parent's data (first interpolated to the resolution at
    which the children meet, if the parent was coarsened), and the two children
    sharing an interface receive the same values on it. *)
Lemma downward_data_pf : forall hom tau ch n k c,
  n <> 0 -> psize (fa ch) = n -> well_formed (pS tau) -> nr (pS tau) = 4 * n -> nc (pS tau) = 8 * n ->
  (hom = false -> length (pw tau) = 4 * n) ->
  pnc tau = k -> gnx (pgrid tau) = c * 2 ^ k -> c * 2 ^ k = 2 * n -> k = 0 \/ 3 <= c ->
  length (pg tau) = 4 * c ->
  exists tau' a b cc d, split1to4 hom tau ch = Ok (tau', Four a b cc d) /\
    let g := refine_by k c (pg tau) in
    pg tau' = g /\ all4 (fun p => length (pg p) = 4 * n) (Four a b cc d) /\
    (piece n (pg a) 0 = piece n g 0 /\ piece n (pg cc) 0 = piece n g 1) /\
    (piece n (pg b) 1 = piece n g 2 /\ piece n (pg d) 1 = piece n g 3) /\
    (piece n (pg a) 2 = piece n g 4 /\ piece n (pg b) 2 = piece n g 5) /\
    (piece n (pg cc) 3 = piece n g 6 /\ piece n (pg d) 3 = piece n g 7) /\
    piece n (pg a) 3 = piece n (pg cc) 2 /\ piece n (pg b) 3 = piece n (pg d) 2 /\
    piece n (pg a) 1 = piece n (pg b) 0 /\ piece n (pg cc) 1 = piece n (pg d) 0.
Proof.
  intros hom tau ch n k c Hn Hp WS NS CS Lw Hk Hx Hc H3 Lg.
  pose proof (family_split hom tau ch n Hn Hp WS NS CS Lw k c Hk Hx Hc H3 Lg) as E. cbv zeta in E.
  set (g := refine_by k c (pg tau)) in *.
  set (u := if hom then apply_op (pS tau) g else vplus (apply_op (pS tau) g) (pw tau)) in *.
  do 5 eexists. split; [exact E|]. cbv zeta. cbn [pg set_g fa fb fc fd].
  assert (Lg' : length g = 8 * n) by (unfold g; rewrite refine_by_length by auto; lia).
  assert (Lu : length u = 4 * n).
  { unfold u. destruct hom; rewrite ?vplus_length, apply_op_length; auto. }
  split; [reflexivity|]. split; [exact (children_data_length n g u Lg' Lu)|].
  unfold children_data. cbn [fa fb fc fd].
  assert (P : forall (v1 v2 v3 v4 : list Qc), length v1 = n -> length v2 = n -> length v3 = n -> length v4 = n ->
    piece n (v1 ++ v2 ++ v3 ++ v4) 0 = v1 /\ piece n (v1 ++ v2 ++ v3 ++ v4) 1 = v2 /\
    piece n (v1 ++ v2 ++ v3 ++ v4) 2 = v3 /\ piece n (v1 ++ v2 ++ v3 ++ v4) 3 = v4).
  { intros v1 v2 v3 v4 L1 L2 L3 L4. unfold piece.
    split; [|split; [|split]].
    - cbn [Nat.mul skipn]. rewrite firstn_app, firstn_all2 by lia. rewrite L1, Nat.sub_diag. cbn [firstn]. apply app_nil_r.
    - replace (1 * n) with (length v1 + 0) by lia. rewrite skipn_app, skipn_all2 by lia.
      replace (length v1 + 0 - length v1) with 0 by lia. cbn [skipn app].
      rewrite firstn_app, firstn_all2 by lia. rewrite L2, Nat.sub_diag. cbn [firstn]. apply app_nil_r.
    - rewrite (app_assoc v1). rewrite skipn_app, skipn_all2 by (rewrite app_length; lia).
      rewrite app_length. replace (2 * n - (length v1 + length v2)) with 0 by lia. cbn [skipn app].
      rewrite firstn_app, firstn_all2 by lia. rewrite L3, Nat.sub_diag. cbn [firstn]. apply app_nil_r.
    - rewrite (app_assoc v2), (app_assoc v1). rewrite skipn_app, skipn_all2 by (rewrite !app_length; lia).
      rewrite !app_length. replace (3 * n - (length v1 + (length v2 + length v3))) with 0 by lia. cbn [skipn app].
      apply firstn_all2. lia. }
  assert (Pg : forall j, j < 8 -> length (piece n g j) = n) by (intros j Hj; apply (piece_length n g j 8); auto).
  assert (Pu : forall j, j < 4 -> length (piece n u j) = n) by (intros j Hj; apply (piece_length n u j 4); auto).
  destruct (P (piece n g 0) (piece n u 2) (piece n g 4) (piece n u 0)) as (-> & -> & -> & ->); try (apply Pg; lia); try (apply Pu; lia).
  destruct (P (piece n u 2) (piece n g 2) (piece n g 5) (piece n u 1)) as (-> & -> & -> & ->); try (apply Pg; lia); try (apply Pu; lia).
  destruct (P (piece n g 1) (piece n u 3) (piece n u 0) (piece n g 6)) as (-> & -> & -> & ->); try (apply Pg; lia); try (apply Pu; lia).
  destruct (P (piece n u 3) (piece n g 3) (piece n u 1) (piece n g 7)) as (-> & -> & -> & ->); try (apply Pg; lia); try (apply Pu; lia).
  repeat split.
Qed.

Lemma downward_example_expf :
  match merge4to1 gauss_gesv ex_tau (ex_four 1) with
  | Ok (t, ch) =>
      psize (fa ch) = 1 /\ nr (pS t) = 4 /\ nc (pS t) = 8 /\ pnc t = 0 /\ gnx (pgrid t) = 2 /\
      match split1to4 true (set_g t (map Q2Qc [1; 2; 3; 4; 5; 6; 7; 8]%Q)) ch with
      | Ok (_, ch') => fmap (fun p => map this (pg p)) ch' =
          (Four [1; 21 # 8; 5; 21 # 8] [21 # 8; 3; 6; 27 # 8] [2; 27 # 8; 21 # 8; 7] [27 # 8; 4; 27 # 8; 8])%Q
      | _ => False
      end
  | _ => False end.
Proof. vm_compute. repeat split. Qed.

(** [C20] The three stages on a freshly created tree of any shape: they succeed,
    and the leaves' boundary data and solutions are those of the only solution of
    the glued problem with the prescribed data on the domain boundary.  The flux
    through the boundary is T g + h with the root's operator and flux.
    Missing: leaf sides 1 and 2 on trees where siblings are refined differently,
    see [solver_small_leaves_refuted]. *)
Lemma solver_glued_partial_pf : forall m sv gesv load s t st g,
  1 <= m -> gesv_contract gesv -> fresh load s t -> good_leaves m sv s -> well_posed m sv s ->
  3 <= m \/ equal_levels s -> length g = 4 * (m * 2 ^ level s) ->
  exists st1 t1 t2 t3 U h,
    buildStage sv gesv false st t = Ok (st1, t1) /\
    upwardsStage sv gesv false load t1 = Ok t2 /\
    solveStage sv false g t2 = Ok t3 /\
    glued m (solver_leaf sv) s g h U /\ computed_values t3 = leaf_values U /\
    h = vplus (apply_op (pT (data t2)) g) (ph (data t2)) /\
    forall h' U', glued m (solver_leaf sv) s g h' U' -> U' = U /\ h' = h.
Proof. intros m sv gesv load s t st g Hm. apply solver_ok. lia. Qed.

(** A solver with one cell per leaf: the flux through each side is the value on
    that side, with the sign of the outer normal. *)
Definition dT : matrix Qc := mat_of 4 4 (fun i j => if i =? j then toy_sign i else 0%Qc).
Definition dsolver : solver :=
  Solver (fun G g f => Ok f) (fun G g f => Ok (vplus (apply_op dT g) (zeros 4)))
         (fun G => Ok dT) (fun G f => Ok (zeros 4)).
Definition dtree : qtree := ex_tree 1.

Lemma d_affine G : gnx G = 1 -> gny G = 1 -> affine_solver 1 dsolver G.
Proof.
  intros Ex Ey. split; auto. exists dT. split; [reflexivity|].
  split; [split; [apply mat_of_wf|split; reflexivity]|].
  intros f Lf. exists (zeros 4). split; [reflexivity|]. split; [reflexivity|].
  intros g Lg. split; [eexists; reflexivity|reflexivity].
Qed.

Lemma dT_apply a b c d : apply_op dT [a; b; c; d] = [- a; b; - c; d]%Qc.
Proof.
  unfold apply_op. cbn -[Qcplus Qcmult Qcopp val].
  repeat match goal with |- context [val dT ?i ?j] =>
    let v := eval vm_compute in (this (val dT i j)) in
    replace (val dT i j) with (Q2Qc v) by (apply Qc_is_canon; vm_compute; reflexivity) end.
  change (Q2Qc 1) with 1%Qc. change (Q2Qc (-1)) with (- (1))%Qc. change (Q2Qc 0) with 0%Qc.
  repeat (f_equal; try ring).
Qed.

Lemma list4 {A} (z : list A) : length z = 4 -> exists a b c d, z = [a; b; c; d].
Proof. destruct z as [|a [|b [|c [|d [|]]]]]; try discriminate. eauto. Qed.
Lemma list8 {A} (z : list A) : length z = 8 -> exists a b c d e f g h, z = [a; b; c; d; e; f; g; h].
Proof. destruct z as [|a [|b [|c [|d [|e [|f [|g [|h [|]]]]]]]]]; try discriminate. eauto 10. Qed.

Lemma neg_self_zero (x k : Qc) : (k * x = - x)%Qc -> (k + 1 <> 0)%Qc -> x = 0%Qc.
Proof.
  intros E K. apply Qcmult_integral_l with (x := (k + 1)%Qc); auto.
  replace ((k + 1) * x)%Qc with (k * x + x)%Qc by ring. rewrite E. ring.
Qed.

(** One node whose four children are leaves. *)
Lemma d_node Ga fa_ Gb fb_ Gc fc_ Gd fd_ g h z Ua Ub Uc Ud :
  glued 1 (linear_leaf dsolver) (QNode (QLeaf Ga fa_) (QLeaf Gb fb_) (QLeaf Gc fc_) (QLeaf Gd fd_)) g h
    (SNode z Ua Ub Uc Ud) ->
  z = zeros 4 /\ exists a b c d e f x y, g = [a; b; c; d; e; f; x; y] /\ h = [- a; - b; c; d; - e; - f; x; y]%Qc.
Proof.
  cbn [glued min_level level Nat.min Nat.pow Nat.mul Nat.sub Nat.add refine_by coarsen_by].
  intros (Lg & Lz & H & A & B & C & D & Hc & Hh).
  destruct (list8 g Lg) as (g0 & g1 & g2 & g3 & g4 & g5 & g6 & g7 & ->).
  destruct (list4 z Lz) as (z0 & z1 & z2 & z3 & ->).
  destruct Ua, Ub, Uc, Ud; try contradiction.
  destruct A as (_ & _ & T1 & E1 & A), B as (_ & _ & T2 & E2 & B), C as (_ & _ & T3 & E3 & C), D as (_ & _ & T4 & E4 & D).
  apply Ok_inj in E1, E2, E3, E4. subst T1 T2 T3 T4.
  cbn [children_data piece Nat.mul Nat.add skipn firstn app fa fb fc fd] in A, B, C, D.
  rewrite dT_apply in A, B, C, D. destruct H as [Ha Hb Hc' Hd]. cbn [fa fb fc fd] in *. subst Ha Hb Hc' Hd.
  destruct Hc as (C1 & C2 & C3 & C4). unfold piece in *. cbn [Nat.mul Nat.add skipn firstn app fa fb fc fd] in *.
  injection C1 as C1. injection C2 as C2. injection C3 as C3. injection C4 as C4.
  assert (K : (1 + 1 <> 0)%Qc) by discriminate.
  split.
  - unfold zeros. cbn [repeat].
    rewrite (neg_self_zero z0 1), (neg_self_zero z1 1), (neg_self_zero z2 1), (neg_self_zero z3 1);
      try reflexivity; try exact K; rewrite ?Qcmult_1_l; auto.
  - subst h. unfold outer_flux, piece. cbn [Nat.mul Nat.add skipn firstn app fa fb fc fd]. repeat eexists.
Qed.

Lemma d_wp : well_posed 1 dsolver dtree.
Proof.
  intros a b c d Hs h z Ua Ub Uc Ud HG.
  destruct Hs as [E|Hs].
  - injection E as -> -> -> ->.
    cbn [glued min_level level ex_leaf Nat.min Nat.pow Nat.mul Nat.sub Nat.add] in HG |- *.
    destruct HG as (Lg & Lz & H & A & B & C & D & Hc & Hh). clear Hh Lg.
    destruct (list4 z Lz) as (z0 & z1 & z2 & z3 & ->).
    destruct Ua; [contradiction|].
    apply (d_node _ _ _ _ _ _ _ _ _ (fa H) z) in A. destruct A as (_ & x0 & x1 & x2 & x3 & x4 & x5 & x6 & x7 & A & Ha).
    cbn [refine_by coarsen_by] in *. destruct Ub, Uc, Ud; try contradiction.
    destruct B as (_ & _ & T2 & E2 & B), C as (_ & _ & T3 & E3 & C), D as (_ & _ & T4 & E4 & D).
    apply Ok_inj in E2, E3, E4. subst T2 T3 T4.
    unfold children_data, zeros, piece in A, B, C, D. cbn [repeat Nat.mul Nat.add skipn firstn app fa fb fc fd] in A, B, C, D.
    rewrite dT_apply in B, C, D. destruct H as [Ha' Hb Hc' Hd]. cbn [fa fb fc fd] in *. subst Ha' Hb Hc' Hd.
    destruct Hc as (C1 & C2 & C3 & C4). unfold piece in C1, C2, C3, C4.
    unfold refine4, refine_side, coarsen4, coarsen_side, piece, fine_value in *.
    cbn -[Qcplus Qcmult Qcopp Q2Qc] in A, C1, C2, C3, C4.
    injection A as A0 A1 A2 A3 A4 A5 A6 A7.
    apply (f_equal (hd 0%Qc)) in C1, C2, C3, C4. cbn [hd] in C1, C2, C3, C4.
    assert (z1 = 0%Qc) as -> by (apply (neg_self_zero z1 1); [rewrite Qcmult_1_l; auto|discriminate]).
    assert (z3 = 0%Qc) as -> by (apply (neg_self_zero z3 1); [rewrite Qcmult_1_l; auto|discriminate]).
    assert (K : (Q2Qc (1 # 2) * (Q2Qc (45 # 32) + Q2Qc (45 # 32) + Q2Qc (-9 # 16) + Q2Qc (5 # 32)) + 1 <> 0)%Qc)
      by (vm_compute; discriminate).
    assert (z0 = 0%Qc) as ->.
    { subst x6 x7. eapply (neg_self_zero z0); [|exact K]. refine (eq_trans _ C1). change (Q2Qc 0) with 0%Qc. ring. }
    assert (z2 = 0%Qc) as ->.
    { subst x2 x3. eapply (neg_self_zero z2); [|exact K]. refine (eq_trans _ C3). change (Q2Qc 0) with 0%Qc. ring. }
    reflexivity.
  - destruct Hs as [Hs|[Hs|[Hs|Hs]]]; try (destruct Hs as [Hs|Hs]; [discriminate Hs|contradiction Hs]).
    destruct Hs as [E|[Hs|[Hs|[Hs|Hs]]]]; try (destruct Hs as [Hs|Hs]; [discriminate Hs|contradiction Hs]).
    injection E as -> -> -> ->. apply d_node in HG. apply HG.
Qed.

(** [C20] With one cell per leaf the build fails as soon as two neighbouring
    siblings are refined differently, although the glued problem is uniquely
    solvable: the interpolation writes outside its matrix. *)
Lemma solver_small_leaves_refuted_pf : exists m sv gesv load s t,
  1 <= m /\ gesv_contract gesv /\ fresh load s t /\ good_leaves m sv s /\ well_posed m sv s /\
  forall st, buildStage sv gesv false st t = Throw out_of_range.
Proof.
  exists 1, dsolver, gauss_gesv, (ex_load 1), dtree, (fresh_tree dtree).
  split; [lia|]. split; [exact gauss_gesv_contract|]. split; [apply ex_tree_fresh|].
  split; [cbn [dtree ex_tree ex_leaf good_leaves]; unfold ex_load;
          repeat (split; try apply vec_of_length; try (apply d_affine; reflexivity))|].
  split; [exact d_wp|]. intros st. vm_compute. reflexivity.
Qed.

(** [C56] The same for every leaf side the interpolation is made for (3 and more)
    on every quadtree, and for every leaf side on quadtrees without a change of
    resolution. *)
Lemma solver_glued_pf : forall m sv gesv load s t st g,
  1 <= m -> gesv_contract gesv -> fresh load s t -> good_leaves m sv s -> well_posed m sv s ->
  3 <= m \/ equal_levels s -> length g = 4 * (m * 2 ^ level s) ->
  exists st1 t1 t2 t3 U h,
    buildStage sv gesv false st t = Ok (st1, t1) /\
    upwardsStage sv gesv false load t1 = Ok t2 /\
    solveStage sv false g t2 = Ok t3 /\
    glued m (solver_leaf sv) s g h U /\ computed_values t3 = leaf_values U /\
    h = vplus (apply_op (pT (data t2)) g) (ph (data t2)) /\
    forall h' U', glued m (solver_leaf sv) s g h' U' -> U' = U /\ h' = h.
Proof. intros m sv gesv load s t st g Hm. apply solver_ok. lia. Qed.

(** The hypotheses hold on an adaptive tree of seven leaves with side 3. *)
Lemma solver_glued_example_expf :
  gesv_contract gauss_gesv /\ fresh (ex_load 3) (ex_tree 3) (fresh_tree (ex_tree 3)) /\
  good_leaves 3 (toy 3) (ex_tree 3) /\ well_posed 3 (toy 3) (ex_tree 3) /\ level (ex_tree 3) = 1 /\
  ~ equal_levels (ex_tree 3).
Proof.
  split; [exact gauss_gesv_contract|]. split; [apply ex_tree_fresh|]. split; [apply ex_tree_good|].
  split; [exact ex_tree_wp|]. split; [reflexivity|]. intros (E & _). discriminate E.
Qed.
