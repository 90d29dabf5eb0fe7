(** Locally refined meshes on which the glued problem is singular. *)
From Verif Require Import Base VectorModel MatrixModel LinSpec HPSModel HPSSpec FVModel FVSpec GlobalSpec StageSpec AdaptSpec SingSpec.
From Verif Require Import MatProofs MatProofs2 LinProofs Gauss LinProps HPSProofs HPSProofs3 HPSProofs4 HPSTree HPSTree2 HPSStage2 HPSProps.
From Verif Require Import FVProofs FVProofs2 FVProofs3 FVMax FVJoin FVGlobal FVFish FVProps AdaptCert AdaptProofs AdaptPlane AdaptEnd AdaptProps SingProofs.
From Coq Require Import Lia.

(** Diffusion coefficient 8 in the square with centre (1/2, 1/2) and side 1/6,
    about 11.07 at one point of it, 1 elsewhere. *)
Definition stiff_beta (x y : Qc) : Qc :=
  let near v := Qle_bool (5 # 12) (this v) && Qle_bool (this v) (7 # 12) in
  if near x && near y then
    if Qeq_bool (this x) (1 # 2) && Qeq_bool (this y) (11 # 24)
    then Q2Qc (12060036502437132400 # 1089783498779316091) else Q2Qc 8
  else 1%Qc.
Definition stiff : coefs := Coefs (fun _ _ => 1%Qc) stiff_beta (fun _ _ => 0%Qc).

Lemma stiff_signs : right_signs stiff.
Proof.
  intros x y. cbn [stiff c_alpha c_beta c_lambda]. split; [discriminate|]. split; [|discriminate].
  unfold stiff_beta. cbv zeta. destruct (_ && _); [destruct (_ && _)|]; reflexivity.
Qed.

(** Values on the seven leaves and on the interfaces. *)
Definition leaf1 : list Z :=
  [779750816647447008; 2339252449942341024; 3878408390442035547; 2339252449942341024;
   7038103042622222565; 11736953635302104106; 3878408390442035547; 11736953635302104106;
   19814833298327140816]%Z.
Definition leaf2 : list Z :=
  [5315835866965732605; 16216469809817017496; 27892712961352177526; 6484301134569609982;
   19920376775648055747; 35032360082553501408; 7185293030234261558; 21948376075652094102;
   39194686245143849117]%Z.
Definition leaf3 : list Z :=
  [5315835866965732605; 6484301134569609982; 7185293030234261558; 16216469809817017496;
   19920376775648055747; 21948376075652094102; 27892712961352177526; 35032360082553501408;
   39194686245143849117]%Z.
Definition leaf4 : list Z :=
  [40507188654711050384; 53121664348069923242; 61744786148842771603; 53121664348069923242;
   75202322506172369573; 97282980664274815904; 61744786148842771603; 97282980664274815904;
   107672132910610646468]%Z.
Definition leaf5 : list Z :=
  [13195799559080737464; 44322332415906036224; 88634498498407978432; 8314132907062371664;
   25630262807652299560; 41731105803230234240; 2744602168578821296; 8153480104410556112;
   12392535545821659704]%Z.
Definition leaf6 : list Z :=
  [13195799559080737464; 8314132907062371664; 2744602168578821296; 44322332415906036224;
   25630262807652299560; 8153480104410556112; 88634498498407978432; 41731105803230234240;
   12392535545821659704]%Z.
Definition leaf7 : list Z :=
  [83260346038700314080; 40267126361038999264; 12078091821467508168; 40267126361038999264;
   23998961780757940568; 7730797200476881872; 12078091821467508168; 7730797200476881872;
   2576932400158960624]%Z.
Definition inner_values : list Z :=
  [4597122128703884076; 13976711722559560801; 23853773129839659171; 34199950808031613955;
   44077012215311712325; 50469736196993310360; 4597122128703884076; 13976711722559560801;
   23853773129839659171; 34199950808031613955; 44077012215311712325; 50469736196993310360]%Z.
Definition root_values : list Z :=
  [13269166015758008448; 47075550607194582832; 97022547151866791008; 85947422268554146256;
   40999116082134616752; 12235313683644583936; 13269166015758008448; 47075550607194582832;
   97022547151866791008; 85947422268554146256; 40999116082134616752; 12235313683644583936]%Z.
Definition ints (l : list Z) : list Qc := map (fun k => Q2Qc (inject_Z k)) l.

(** The solution with interface values [z], [z0] and the values [u] on the leaves:
    the boundary data of the leaves follows. *)
Definition on_adapted (z z0 u1 u2 u3 u4 u5 u6 u7 : list Qc) : solution :=
  let x := children_data 3 (zeros 24) z in
  let y := children_data 3 (refine_by 1 3 (fa x)) z0 in
  SNode z (SNode z0 (SLeaf (fa y) u1) (SLeaf (fb y) u2) (SLeaf (fc y) u3) (SLeaf (fd y) u4))
    (SLeaf (fb x) u5) (SLeaf (fc x) u6) (SLeaf (fd x) u7).
Definition no_load : qtree := adapted (fun _ _ => 0%Qc) 3 unit_square.
Definition wave : solution :=
  on_adapted (ints root_values) (ints inner_values) (ints leaf1) (ints leaf2) (ints leaf3) (ints leaf4) (ints leaf5) (ints leaf6) (ints leaf7).
Definition rest : solution :=
  on_adapted (zeros 12) (zeros 12) (zeros 9) (zeros 9) (zeros 9) (zeros 9) (zeros 9) (zeros 9) (zeros 9).
Definition is_some {A} (o : option A) : bool := match o with Some _ => true | None => false end.

Lemma wave_checked : is_some (tree_check stiff 3 no_load (zeros 24) wave) = true.
Proof. vm_cast_no_check (eq_refl true). Qed.
Lemma rest_checked : is_some (tree_check stiff 3 no_load (zeros 24) rest) = true.
Proof. vm_cast_no_check (eq_refl true). Qed.

Lemma glued_of_check lu U : lu_contract lu -> is_some (tree_check stiff 3 no_load (zeros 24) U) = true ->
  exists h, glued 3 (solver_leaf (fv_solver lu stiff)) no_load (zeros 24) h U.
Proof.
  intros HL H. destruct (tree_check stiff 3 no_load (zeros 24) U) as [h|] eqn:E; [|discriminate].
  exists h. apply (tree_check_fv 3 lu stiff unit_square no_load); auto using stiff_signs, unit_oriented.
  apply adapted_tiled.
Qed.

(** [C75] The coefficients have the signs of C57 and every leaf problem is uniquely
    solvable, but where a quarter of the unit square is divided once more the glued
    problem is not: without load and with zero boundary data it has a solution that is
    not zero. *)
Lemma refined_mesh_posed_refuted_pf : exists c G s,
  right_signs c /\ oriented (rect 3 G) /\ tiled 3 G s /\ level s = 1 /\ length (leaves s) = 7 /\
  (forall G' f, In (G', f) (leaves s) -> fv_unique c G' /\ f = zeros 9) /\
  forall lu, lu_contract lu ->
    ~ well_posed 3 (fv_solver lu c) s /\
    exists U h, glued 3 (solver_leaf (fv_solver lu c)) s (zeros 24) h U /\
      exists g u, In (g, u) (leaf_values U) /\ u <> zeros 9.
Proof.
  exists stiff, unit_square, no_load.
  split; [exact stiff_signs|]. split; [exact unit_oriented|]. split; [apply adapted_tiled|].
  split; [reflexivity|]. split; [reflexivity|].
  split.
  { intros G' f HI. split; [apply (leaf_unique 3 stiff unit_square no_load) with (f := f); auto using stiff_signs, unit_oriented; apply adapted_tiled|].
    cbn [no_load adapted leaves app In] in HI.
    repeat (destruct HI as [HI|HI]; [injection HI as <- <-; reflexivity|]). destruct HI. }
  intros lu HL.
  destruct (glued_of_check lu wave HL wave_checked) as (h & Hw).
  destruct (glued_of_check lu rest HL rest_checked) as (h0 & Hr).
  split.
  - intros W.
    destruct (solver_glued_pf 3 (fv_solver lu stiff) gauss_gesv (sampled (fun _ _ => 0%Qc)) no_load (fresh_tree no_load) None (zeros 24))
      as (st1 & t1 & t2 & t3 & U & h1 & _ & _ & _ & _ & _ & _ & HU); auto using gauss_gesv_contract.
    + apply adapted_fresh.
    + apply (tiled_good 3 ltac:(lia) stiff (fv_solve lu stiff) unit_square no_load unit_oriented (adapted_tiled _ _ _)).
      * apply (leaf_unique 3 _ unit_square); auto using stiff_signs, unit_oriented. apply adapted_tiled.
      * apply (fv_leaf_solves 3 lu stiff unit_square); auto using stiff_signs, unit_oriented. apply adapted_tiled.
    + destruct (HU _ _ Hw) as (E1 & _), (HU _ _ Hr) as (E2 & _). rewrite <- E2 in E1. discriminate E1.
  - exists wave, h. split; [exact Hw|]. exists (fa (children_data 3 (refine_by 1 3 (fa (children_data 3 (zeros 24) (ints root_values)))) (ints inner_values))), (ints leaf1).
    split; [left; reflexivity|discriminate].
Qed.

(** [C75] Without a change of resolution it is: every depth of uniform refinement and
    all coefficients with the signs of C57. *)
Lemma uniform_mesh_posed_partial_pf : forall m l lu c xl xu yl yu s,
  2 <= m -> lu_contract lu -> right_signs c -> (xl < xu)%Qc -> (yl < yu)%Qc ->
  uniform m l (whole m l xl xu yl yu) s -> well_posed m (fv_solver lu c) s.
Proof.
  intros m l lu c xl xu yl yu s Hm HL HS Hx Hy HU.
  assert (m * 2 ^ l <> 0) as Hn by (apply pow_nz; lia).
  apply (uniform_posed m ltac:(lia) c HS (fv_solve lu c)) with (l := l) (G := whole m l xl xu yl yu); auto.
  - intros G HO Ex Ey g f Lg Lf. apply orp in HO. apply (fv_solve_ok G m Ex Ey); auto. apply maximum_principle; auto.
  - repeat split; auto.
Qed.

(** [C76] On a uniformly refined rectangle the flux beta du/dn out of the root,
    integrated over its boundary, is the integral of (f - lambda u) / alpha over all
    cells, for every beta. *)
Lemma uniform_balance_partial_pf : forall m l lu c gesv rhs xl xu yl yu s t st g,
  2 <= m -> lu_contract lu -> gesv_contract gesv -> right_signs c -> (xl < xu)%Qc -> (yl < yu)%Qc ->
  let G := whole m l xl xu yl yu in
  uniform m l G s -> fresh (sampled rhs) s t -> length g = 4 * (m * 2 ^ l) ->
  exists st1 t1 t2 t3 u,
    buildStage (fv_solver lu c) gesv false st t = Ok (st1, t1) /\
    upwardsStage (fv_solver lu c) gesv false (sampled rhs) t1 = Ok t2 /\
    solveStage (fv_solver lu c) false g t2 = Ok t3 /\
    map snd (computed_values t3) = scatter m l u /\
    weighted_flux c G (vplus (apply_op (pT (data t2)) g) (ph (data t2))) = leaf_source c G (sampled rhs G) u.
Proof.
  intros m l lu c gesv rhs xl xu yl yu s t st g Hm HL HG HS Hx Hy G HU HF Lg.
  destruct (direct_solver_exact_pf m l lu c gesv rhs xl xu yl yu s t st g Hm HL HG HS Hx Hy HU HF Lg)
    as (st1 & t1 & t2 & t3 & u & E1 & E2 & E3 & E4 & S & _ & E5). fold G in S, E5.
  exists st1, t1, t2, t3, u. split; [exact E1|]. split; [exact E2|]. split; [exact E3|]. split; [exact E4|].
  rewrite <- E5. assert (m * 2 ^ l <> 0) as Hn by (apply pow_nz; lia).
  apply (leaf_balance_var c G (m * 2 ^ l)); auto.
  - apply orp. repeat split; auto.
  - intros x y. apply HS.
Qed.

(** beta = 1 + y^2 on the same seven leaves; a load on the lower right one of the four
    small leaves whose solution is 1 and -1 in the two cells next to the first face of
    the large leaf, and 0 in all other cells. *)
Definition bowl : coefs := Coefs (fun _ _ => 1%Qc) (fun _ y => (1 + y * y)%Qc) (fun _ _ => 0%Qc).
Definition pair_load : list Qc :=
  map Q2Qc [0; 0; 0; 577 # 4; - (585 # 4); 0; - (4043 # 4); 3507 # 4; - (148)]%Q.
Definition pair_values : list Qc := ints [0; 0; 0; 0; 0; 0; 1; -1; 0]%Z.
Definition pair_tree : qtree :=
  let leaf G f := QLeaf (rect 3 G) f in
  let a := quarter 3 unit_square false false in
  QNode (QNode (leaf (quarter 3 a false false) (zeros 9)) (leaf (quarter 3 a true false) pair_load)
               (leaf (quarter 3 a false true) (zeros 9)) (leaf (quarter 3 a true true) (zeros 9)))
    (leaf (quarter 3 unit_square true false) (zeros 9)) (leaf (quarter 3 unit_square false true) (zeros 9))
    (leaf (quarter 3 unit_square true true) (zeros 9)).
Definition pair_solution : solution :=
  on_adapted (zeros 12) (zeros 12) (zeros 9) pair_values (zeros 9) (zeros 9) (zeros 9) (zeros 9) (zeros 9).
Definition pair_flux : list Qc :=
  match tree_check bowl 3 pair_tree (zeros 24) pair_solution with Some h => h | None => [] end.

Lemma bowl_signs : right_signs bowl.
Proof.
  intros x y. cbn [bowl c_alpha c_beta c_lambda]. split; [discriminate|]. split; [|discriminate].
  unfold Qclt. rewrite this_plus, this_mult. change (this 0%Qc) with 0%Q. change (this 1%Qc) with 1%Q.
  destruct (this y) as (a, b). unfold Qlt, Qplus, Qmult. cbn [Qnum Qden]. nia.
Qed.
Lemma pair_checked : tree_check bowl 3 pair_tree (zeros 24) pair_solution = Some pair_flux.
Proof. vm_cast_no_check (eq_refl (Some pair_flux)). Qed.
Lemma pair_unbalanced :
  Qc_eq_bool (weighted_flux bowl (rect 6 unit_square) pair_flux)
             (total_source bowl (leaves pair_tree) (map snd (leaf_values pair_solution))) = false.
Proof. vm_cast_no_check (eq_refl false). Qed.

(** The hypotheses hold at every depth with beta = 1 + y^2. *)
Lemma uniform_balance_example_expf : forall l,
  let rhs := fun x y : Qc => (x + y)%Qc in let G := whole 2 l 0 1 0 (1 + 1)%Qc in
  lu_contract lu_gauss /\ gesv_contract gauss_gesv /\ right_signs bowl /\
  uniform 2 l G (divided rhs 2 l G) /\ fresh (sampled rhs) (divided rhs 2 l G) (fresh_tree (divided rhs 2 l G)).
Proof.
  intros l rhs G. split; [exact lu_gauss_contract|]. split; [exact gauss_gesv_contract|].
  split; [exact bowl_signs|]. split; [apply divided_uniform|apply divided_fresh].
Qed.

(** [C76] Where the resolution changes it is not: difference quotients are averaged,
    not fluxes.  The seven leaves again, beta = 1 + y^2.  Whatever the stages return
    on this well-posed or ill-posed problem, the equations they solve have a solution
    out of balance, and if there is only one the stages return it. *)
Lemma refined_balance_refuted_pf : exists c G s g,
  right_signs c /\ oriented (rect 3 G) /\ tiled 3 G s /\ level s = 1 /\ length g = 24 /\
  forall lu, lu_contract lu ->
    (exists U h, glued 3 (solver_leaf (fv_solver lu c)) s g h U /\
       weighted_flux c (rect 6 G) h <> total_source c (leaves s) (map snd (leaf_values U))) /\
    forall gesv load t st, gesv_contract gesv -> fresh load s t -> well_posed 3 (fv_solver lu c) s ->
      exists st1 t1 t2 t3,
        buildStage (fv_solver lu c) gesv false st t = Ok (st1, t1) /\
        upwardsStage (fv_solver lu c) gesv false load t1 = Ok t2 /\
        solveStage (fv_solver lu c) false g t2 = Ok t3 /\
        weighted_flux c (rect 6 G) (vplus (apply_op (pT (data t2)) g) (ph (data t2))) <>
        total_source c (leaves s) (map snd (computed_values t3)).
Proof.
  assert (T : tiled 3 unit_square pair_tree) by (repeat split).
  exists bowl, unit_square, pair_tree, (zeros 24).
  split; [exact bowl_signs|]. split; [exact unit_oriented|]. split; [exact T|]. split; [reflexivity|]. split; [reflexivity|].
  intros lu HL.
  assert (HG : glued 3 (solver_leaf (fv_solver lu bowl)) pair_tree (zeros 24) pair_flux pair_solution).
  { apply (tree_check_fv 3 lu bowl unit_square pair_tree (le_S _ _ (le_n 2)) HL bowl_signs unit_oriented T). exact pair_checked. }
  assert (HN : weighted_flux bowl (rect 6 unit_square) pair_flux <> total_source bowl (leaves pair_tree) (map snd (leaf_values pair_solution))).
  { intros E. pose proof pair_unbalanced as Q. unfold Qc_eq_bool in Q. destruct (Qc_eq_dec _ _) as [|N]; [discriminate|]. exact (N E). }
  split; [exists pair_solution, pair_flux; auto|].
  intros gesv load t st Hge HF HW.
  destruct (solver_glued_pf 3 (fv_solver lu bowl) gesv load pair_tree t st (zeros 24)) as (st1 & t1 & t2 & t3 & U & h & E1 & E2 & E3 & _ & Ev & Eh & HU); auto.
  - apply (tiled_good 3 ltac:(lia) bowl (fv_solve lu bowl) unit_square pair_tree unit_oriented T).
    + apply (leaf_unique 3 _ unit_square); auto using bowl_signs, unit_oriented.
    + apply (fv_leaf_solves 3 lu bowl unit_square); auto using bowl_signs, unit_oriented.
  - exists st1, t1, t2, t3. split; [exact E1|]. split; [exact E2|]. split; [exact E3|].
    rewrite <- Eh, Ev. destruct (HU _ _ HG) as (<- & <-). exact HN.
Qed.
