(** Properties of quadrants, paths, node maps, traversals. *)
From Verif Require Import Base VectorModel MatrixModel HPSModel TreeModel TreeSpec.
From Verif Require Import TreeProofs TreeTile TreeCtor TreeOrder TreeMap TreeOrder2.

(** A tree with one refined quadrant on three ranks: leaves 0,0 | 1,1,1 | 2,2. *)
Definition ex_forest : forest :=
  FNode (FLeaf 0) (FNode (FLeaf 0) (FLeaf 1) (FLeaf 1) (FLeaf 1)) (FLeaf 2) (FLeaf 2).
Definition ex_root : patch := new_patch (Grid 4 4 0%Qc 1%Qc 0%Qc 1%Qc).

Lemma ex_contiguous : contiguous ex_forest.
Proof. repeat constructor. Qed.
Lemma ex_depth : depth ex_forest <= qmaxlevel.
Proof. vm_compute. repeat constructor. Qed.

Lemma leaf_grids f root : contiguous f -> depth f <= qmaxlevel ->
  forall ds G, leaf_with_grid f root ds G <-> In ds (leaf_paths f) /\ G = grid_at (pgrid root) ds.
Proof.
  intros C HL ds G. split.
  - intros (rank & m & n & E & Em & El & Eg).
    destruct (construct_ok fv_factory rank root f C HL) as (m' & E' & X & _).
    rewrite E in E'. injection E' as <-. rewrite X in Em. unfold expected in Em.
    destruct (sub f ds) as [f'|] eqn:Es; [|discriminate].
    destruct (in_range rank (pfirst f') (plast f')); [|discriminate]. injection Em as <-.
    destruct (chain_fields fv_factory rank (root_node fv_factory rank root f) f ds f' fv_factory_ok Es)
      as (_ & _ & _ & _ & F5); [reflexivity..|].
    rewrite El in F5. destruct f' as [o|]; [|discriminate].
    split; [apply leaf_sub; eauto|]. rewrite <- Eg, (chain_grid' _ _ _ _ _ Es). reflexivity.
  - intros [Hl ->]. apply leaf_sub in Hl as (o & Es).
    destruct (construct_ok fv_factory o root f C HL) as (m & E & X & _).
    exists o, m. rewrite X. unfold expected. rewrite Es. 
    change (pfirst (FLeaf o)) with o. change (plast (FLeaf o)) with o.
    rewrite (proj2 (own_range o o) eq_refl).
    eexists. split; [exact E|]. split; [reflexivity|].
    destruct (chain_fields fv_factory o (root_node fv_factory o root f) f ds (FLeaf o) fv_factory_ok Es)
      as (_ & _ & _ & _ & F5); [reflexivity..|].
    rewrite F5. split; [apply Nat.eqb_refl|]. rewrite (chain_grid' _ _ _ _ _ Es). reflexivity.
Qed.

Lemma nodup_sorted f : NoDup (leaf_paths f).
Proof.
  pose proof (leaf_paths_sorted f) as H. induction H as [|a l H IH F]; constructor; auto.
  intros Hi. rewrite Forall_forall in F. exact (before_irr _ (F a Hi)).
Qed.

(** [C32] The leaf nodes of the constructed tree (over all ranks) have rectangles
    with the root's cell counts whose areas add up to the root's area; interiors
    are disjoint; every point of the root rectangle lies in a leaf; leaves that
    meet along an edge do so on a common line, with one edge containing the
    other, and with equal edges if the leaves are of equal level. *)
Lemma leaves_tile_domain_pf : forall f root, contiguous f -> depth f <= qmaxlevel ->
  proper_rect (pgrid root) ->
  exists leaves : list (list nat * grid),
    NoDup (map fst leaves) /\
    (forall ds G, In (ds, G) leaves <-> leaf_with_grid f root ds G) /\
    (forall ds G, In (ds, G) leaves -> gnx G = gnx (pgrid root) /\ gny G = gny (pgrid root) /\ proper_rect G) /\
    Qcsum (map (fun l => area (snd l)) leaves) = area (pgrid root) /\
    (forall ds G ds' G' x y, In (ds, G) leaves -> In (ds', G') leaves -> ds <> ds' ->
       interior G x y -> interior G' x y -> False) /\
    (forall x y, inside (pgrid root) x y <-> exists ds G, In (ds, G) leaves /\ inside G x y) /\
    (forall ds G ds' G', In (ds, G) leaves -> In (ds', G') leaves -> ds <> ds' -> meet_x G G' ->
       (gxu G = gxl G' \/ gxu G' = gxl G) /\ nested (gyl G) (gyu G) (gyl G') (gyu G') /\
       (length ds = length ds' -> gyl G = gyl G' /\ gyu G = gyu G')) /\
    (forall ds G ds' G', In (ds, G) leaves -> In (ds', G') leaves -> ds <> ds' -> meet_y G G' ->
       (gyu G = gyl G' \/ gyu G' = gyl G) /\ nested (gxl G) (gxu G) (gxl G') (gxu G') /\
       (length ds = length ds' -> gxl G = gxl G' /\ gxu G = gxu G')).
Proof.
  intros f root C HL P. exists (map (fun ds => (ds, grid_at (pgrid root) ds)) (leaf_paths f)).
  assert (IN : forall ds G, In (ds, G) (map (fun ds => (ds, grid_at (pgrid root) ds)) (leaf_paths f))
                <-> In ds (leaf_paths f) /\ G = grid_at (pgrid root) ds).
  { intros ds G. rewrite in_map_iff. split.
    - intros (d & E & H). injection E as <- <-. auto.
    - intros (H & ->). exists ds. auto. }
  split; [rewrite map_map, map_id; apply nodup_sorted|].
  split; [intros ds G; rewrite IN, (leaf_grids f root C HL); reflexivity|].
  split.
  { intros ds G H. apply IN in H as (H & ->).
    destruct (grid_at_iv (pgrid root) ds (leaf_digits f ds H)) as (_ & _ & _ & _ & E1 & E2).
    split; [exact E1|]. split; [exact E2|]. apply grid_at_proper; auto. apply (leaf_digits f). exact H. }
  split; [rewrite map_map; cbn [snd]; apply areas_sum|].
  split.
  { intros ds G ds' G' x y H H' Hne. apply IN in H as (H & ->). apply IN in H' as (H' & ->).
    apply (leaves_disjoint f); auto. }
  split.
  { intros x y. split.
    - intros Hi. destruct (leaves_cover f _ x y Hi) as (ds & H & I). exists ds, (grid_at (pgrid root) ds).
      split; [apply IN; auto|exact I].
    - intros (ds & G & H & I). apply IN in H as (H & ->).
      apply (grid_at_within _ ds x y (leaf_digits f ds H) P). exact I. }
  split.
  - intros ds G ds' G' H H' Hne (M1 & M2 & y & Y1 & Y2 & Y3 & Y4). apply IN in H as (H & ->). apply IN in H' as (H' & ->).
    apply (leaves_share_x f _ ds ds' y); auto.
  - intros ds G ds' G' H H' Hne (M1 & M2 & x & Y1 & Y2 & Y3 & Y4). apply IN in H as (H & ->). apply IN in H' as (H' & ->).
    apply (leaves_share_y f _ ds ds' x); auto.
Qed.

(** The grid of the leaf 13 of the example tree: [3/4,1] x [1/4,1/2]. *)
Lemma leaves_tile_domain_example_expf :
  leaf_with_grid ex_forest ex_root [1; 3]
    (Grid 4 4 (Q2Qc (3 # 4)) 1%Qc (Q2Qc (1 # 4)) (Q2Qc (1 # 2))) /\ contiguous ex_forest /\
  depth ex_forest <= qmaxlevel /\ proper_rect (pgrid ex_root).
Proof.
  split; [|split; [exact ex_contiguous|split; [exact ex_depth|split; reflexivity]]].
  apply leaf_grids; [exact ex_contiguous|exact ex_depth|]. split; [vm_compute; auto 10|].
  unfold grid_at, ex_root. cbn [fold_left child_grid gxl gxu gyl gyu gnx gny pgrid new_patch].
  f_equal; apply Qc_is_canon; reflexivity.
Qed.

(** [C33] createParentNode undoes createChildNode: grid, path, level. *)
Lemma parent_inverts_children_pf : forall n pf pl,
  let ch := Four (createChildNode n 0 pf pl) (createChildNode n 1 pf pl)
                 (createChildNode n 2 pf pl) (createChildNode n 3 pf pl) in
  let p := createParentNode ch (n_pfirst n) (n_plast n) in
  pgrid (n_data p) = pgrid (n_data n) /\ n_path p = n_path n /\ n_level p = n_level n.
Proof.
  intros n pf pl ch p. unfold p, ch. rewrite parent_of_children. auto.
Qed.

(** A node at level 2 with an anisotropic grid; the parent's grid is not the one of
    a child. *)
Lemma parent_inverts_children_example_expf :
  let n := createNode (new_patch (Grid 3 5 0%Qc 1%Qc (Qcopp 1%Qc) 1%Qc)) [0; 2; 1] 2 0 0 in
  map this [gxl (pgrid (n_data (createChildNode n 3 0 0))); gyl (pgrid (n_data (createChildNode n 3 0 0)))]
    = [1 # 2; 0 # 1]%Q /\
  n_path (createChildNode n 3 0 0) = [0; 2; 1; 3].
Proof. vm_compute. auto. Qed.

(** [C34] Paths: length, injectivity, paths of children, every list of digits is
    the path of exactly one quadrant; the p4est child is the square of half the
    side; the path stored by the constructor in the node of a quadrant is the
    path computed from the quadrant's coordinates. *)
Lemma paths_identify_quadrants_pf :
  (forall q, length (quadrant_path q) = qlevel q + 1) /\
  (forall q q', valid_quadrant q -> valid_quadrant q' -> quadrant_path q = quadrant_path q' -> q = q') /\
  (forall q i, valid_quadrant q -> qlevel q < qmaxlevel -> i < 4 ->
     valid_quadrant (qchild q i) /\ is_child q i (qchild q i) /\
     quadrant_path (qchild q i) = quadrant_path q ++ [i]) /\
  (forall ds, Forall (fun i => i < 4) ds -> length ds <= qmaxlevel ->
     exists q, valid_quadrant q /\ quadrant_path q = 0 :: ds).
Proof.
  split; [exact path_length|]. split; [exact path_inj|]. split.
  - intros q i V L Hi. split; [apply valid_child; auto|]. split; [apply child_is_child; auto|apply path_child; auto].
  - intros ds F L. exists (quad_at root_quadrant ds).
    destruct (quad_at_ok root_quadrant ds root_valid F) as [V E]; [cbn; lia|]. auto.
Qed.

(** [C34] The path built by the node factory is the key computed from the
    coordinates. *)
Lemma factory_path_pf : forall fac rank (root_data : patch) f q m n,
  factory_ok fac -> contiguous f -> depth f <= qmaxlevel ->
  construct fac rank root_data f = Ok m -> valid_quadrant q -> m (quadrant_path q) = Some n ->
  n_path n = quadrant_path q /\ n_level n = qlevel q.
Proof.
  intros fac rank root_data f q m n FO C HL E V Em.
  destruct (construct_ok fac rank root_data f C HL) as (m' & E' & X & O).
  rewrite E in E'. injection E' as <-.
  destruct (path_digits q) as (ds & Ep & Ld & Fd). rewrite Ep in Em. rewrite X in Em.
  unfold expected in Em. destruct (sub f ds) as [f'|] eqn:Es; [|discriminate].
  destruct (in_range rank (pfirst f') (plast f')); [|discriminate]. injection Em as <-.
  destruct (proj1 FO root_data [0] 0 (pfirst f) (plast f)) as (_ & A1 & A2 & A3 & A4).
  destruct (chain_fields fac rank (root_node fac rank root_data f) f ds f' FO Es)
    as (F1 & F2 & _); [exact A3|exact A4|reflexivity|].
  rewrite F1, F2, Ep. unfold root_node. cbn [n_path n_level set_nleaf]. rewrite A1, A2. auto.
Qed.

(** The quadrant with corner (3/4, 1/4) at level 2. *)
Lemma paths_identify_quadrants_example_expf :
  quadrant_path (Quad (3 * 2 ^ 28) (2 ^ 28) 2) = [0; 1; 3] /\ valid_quadrant (Quad (3 * 2 ^ 28) (2 ^ 28) 2) /\
  match construct fv_factory 1 ex_root ex_forest with
  | Ok m => match m (quadrant_path (Quad (3 * 2 ^ 28) (2 ^ 28) 2)) with
            | Some n => n_path n = [0; 1; 3] /\ n_level n = 2 /\ n_leaf n = true
            | None => False
            end
  | _ => False
  end.
Proof.
  split; [reflexivity|]. split.
  - unfold valid_quadrant; cbn [qx qy qlevel]. split; [unfold qmaxlevel; lia|]. split; [lia|]. split; [lia|].
    split; [exists 3%Z|exists 1%Z]; reflexivity.
  - vm_compute. auto.
Qed.

(** ** Ownership *)

(** [C39] On every rank the constructor succeeds and leaves a node exactly for the
    quadrants whose range of owning ranks contains the rank; there are no other
    entries. *)
Lemma ownership_pf : forall {D} (fac : factory D) rank root_data f,
  factory_ok fac -> contiguous f -> depth f <= qmaxlevel ->
  exists m, construct fac rank root_data f = Ok m /\ node_map rank f m /\
    (forall ds, (exists n, m (0 :: ds) = Some n) <-> owned_quadrant rank f ds) /\
    (forall k, (forall ds, k <> 0 :: ds) -> m k = None).
Proof.
  intros D fac rank root_data f FO C HL.
  destruct (construct_node_map fac rank root_data f FO C HL) as (m & E & NM).
  destruct (construct_ok fac rank root_data f C HL) as (m' & E' & X & O).
  rewrite E in E'. injection E' as <-. exists m. split; [exact E|]. split; [exact NM|]. split; [|exact O].
  intros ds. rewrite X. unfold expected, owned_quadrant. split.
  - intros (n & H). destruct (sub f ds) as [f'|] eqn:Es; [|discriminate].
    destruct (in_range rank (pfirst f') (plast f')) eqn:Ei; [|discriminate].
    apply in_range_spec in Ei as (o1 & o2 & H1 & H2 & H3); [|apply (contiguous_sub f ds); auto].
    exists f', o1, o2. auto.
  - intros (f' & o1 & o2 & Es & H). rewrite Es.
    assert (Ei : in_range rank (pfirst f') (plast f') = true).
    { apply in_range_spec; [apply (contiguous_sub f ds); auto|]. exists o1, o2. exact H. }
    rewrite Ei. eauto.
Qed.

(** [C39] Every node below the root was made by the factory's createChildNode from
    the node of its parent, which is in the same map. *)
Lemma created_from_parent_pf : forall {D} (fac : factory D) rank root_data f m ds i n,
  factory_ok fac -> contiguous f -> depth f <= qmaxlevel ->
  construct fac rank root_data f = Ok m -> m (0 :: ds ++ [i]) = Some n ->
  exists par, m (0 :: ds) = Some par /\
    n = set_nleaf (f_child fac par i (n_pfirst n) (n_plast n)) (n_leaf n).
Proof.
  intros D fac rank root_data f m ds i n FO C HL E Em.
  destruct (construct_ok fac rank root_data f C HL) as (m' & E' & X & O).
  rewrite E in E'. injection E' as <-. rewrite X in Em |- *. unfold expected in *.
  destruct (sub f (ds ++ [i])) as [f''|] eqn:Es; [|discriminate].
  destruct (in_range rank (pfirst f'') (plast f'')) eqn:Ei; [|discriminate]. injection Em as <-.
  destruct (sub f ds) as [f'|] eqn:Ed.
  - rewrite (sub_app f ds [i] f' Ed) in Es. cbn in Es.
    destruct (fchild f' i) as [g|] eqn:Eg; [|discriminate]. injection Es as ->.
    rewrite (range_child f' i f'' rank (contiguous_sub f ds f' C Ed) Eg Ei).
    eexists. split; [reflexivity|]. rewrite (chain_snoc fac rank _ f ds i f' f'' Ed Eg).
    unfold child_node. cbn [n_pfirst n_plast n_leaf set_nleaf].
    destruct (proj2 FO (chain fac rank (root_node fac rank root_data f) f ds) i (pfirst f'') (plast f''))
      as (_ & _ & -> & ->). reflexivity.
  - exfalso. clear - Es Ed. revert f Es Ed. induction ds as [|j ds IH]; intros f Es Ed; [discriminate|].
    cbn [app sub] in *. destruct (fchild f j) as [g|]; [apply (IH g); auto|discriminate].
Qed.

(** [C39] The range of a node with children runs from the first rank of child 0 to
    the last rank of child 3, and the ranges of the children follow each other in
    order; the nodes are found on the ranks at the ends of the range. *)
Lemma parent_range_spanned_pf : forall {D} (fac : factory D) root_data f ds f',
  factory_ok fac -> contiguous f -> depth f <= qmaxlevel ->
  sub f ds = Some f' -> ~ is_leaf f' ->
  (forall rank m n, construct fac rank root_data f = Ok m -> m (0 :: ds) = Some n ->
     (exists m0 c0, construct fac (n_pfirst n) root_data f = Ok m0 /\ m0 (0 :: ds ++ [0]) = Some c0 /\
        n_pfirst c0 = n_pfirst n) /\
     (exists m3 c3, construct fac (n_plast n) root_data f = Ok m3 /\ m3 (0 :: ds ++ [3]) = Some c3 /\
        n_plast c3 = n_plast n)) /\
  (forall r1 r2 m1 m2 i j c1 c2, construct fac r1 root_data f = Ok m1 -> construct fac r2 root_data f = Ok m2 ->
     m1 (0 :: ds ++ [i]) = Some c1 -> m2 (0 :: ds ++ [j]) = Some c2 -> i < j ->
     n_pfirst c1 <= n_plast c1 /\ n_plast c1 <= n_pfirst c2).
Proof.
  intros D fac root_data f ds f' FO C HL Es Hnl.
  assert (NM : forall rank m, construct fac rank root_data f = Ok m -> node_map rank f m).
  { intros rank m E. destruct (construct_node_map fac rank root_data f FO C HL) as (m' & E' & H).
    rewrite E in E'. injection E' as <-. exact H. }
  assert (C' : contiguous f') by (apply (contiguous_sub f ds); auto).
  destruct f' as [o|a b c d]; [exfalso; apply Hnl; exists o; reflexivity|].
  assert (Sc : forall i g, fchild (FNode a b c d) i = Some g -> sub f (ds ++ [i]) = Some g).
  { intros i g Hg. rewrite (sub_app f ds [i] _ Es). cbn [sub]. rewrite Hg. reflexivity. }
  split.
  - intros rank m n E Em. pose proof (NM rank m E ds _ Es) as H.
    destruct (in_range rank (pfirst (FNode a b c d)) (plast (FNode a b c d))); [|congruence].
    destruct H as (n' & En & _ & _ & P1 & P2 & _). rewrite Em in En. injection En as <-.
    rewrite P1, P2, pfirst_child, plast_child.
    apply contiguous_children in C' as (Ca & _ & _ & Cd).
    split.
    + destruct (construct_node_map fac (pfirst a) root_data f FO C HL) as (m0 & E0 & N0).
      specialize (N0 (ds ++ [0]) a (Sc 0 a eq_refl)). rewrite (first_in_range a Ca) in N0.
      destruct N0 as (c0 & H0 & _ & _ & Q & _). exists m0, c0. auto.
    + destruct (construct_node_map fac (plast d) root_data f FO C HL) as (m0 & E0 & N0).
      specialize (N0 (ds ++ [3]) d (Sc 3 d eq_refl)). rewrite (last_in_range d Cd) in N0.
      destruct N0 as (c0 & H0 & _ & _ & _ & Q & _). exists m0, c0. auto.
  - intros r1 r2 m1 m2 i j c1 c2 E1 E2 H1 H2 Hij.
    assert (G : forall r m k ck, construct fac r root_data f = Ok m -> m (0 :: ds ++ [k]) = Some ck ->
      exists g, fchild (FNode a b c d) k = Some g /\ n_pfirst ck = pfirst g /\ n_plast ck = plast g /\ contiguous g).
    { intros r m k ck E H. destruct (construct_ok fac r root_data f C HL) as (m' & E' & X & _).
      rewrite E in E'. injection E' as <-. pose proof H as H'. rewrite X in H'. unfold expected in H'.
      destruct (sub f (ds ++ [k])) as [g|] eqn:Eg; [|discriminate].
      pose proof (NM r m E (ds ++ [k]) g Eg) as N. pose proof Eg as Eg'.
      rewrite (sub_app f ds [k] _ Es) in Eg. cbn [sub] in Eg.
      destruct (fchild (FNode a b c d) k) as [g'|] eqn:Ek; [|discriminate]. injection Eg as ->.
      exists g. split; [reflexivity|]. destruct (in_range r (pfirst g) (plast g)); [|discriminate].
      destruct N as (n' & En & _ & _ & Q1 & Q2 & _). rewrite H in En. injection En as <-.
      split; [exact Q1|]. split; [exact Q2|]. apply (contiguous_sub f (ds ++ [k])); auto. }
    destruct (G r1 m1 i c1 E1 H1) as (g1 & K1 & Q1 & Q2 & C1).
    destruct (G r2 m2 j c2 E2 H2) as (g2 & K2 & Q3 & Q4 & C2).
    rewrite Q1, Q2, Q3. split.
    + pose proof (owners_bounds g1 _ C1 (pfirst_in g1)). lia.
    + apply (child_ranges_ordered a b c d i j); auto.
Qed.

(** [C39] Every leaf has exactly one rank that has a node for it, and there the
    node is marked as a leaf; marked nodes are leaves. *)
Lemma leaf_owned_once_pf : forall {D} (fac : factory D) root_data f ds,
  factory_ok fac -> contiguous f -> depth f <= qmaxlevel ->
  (In ds (leaf_paths f) ->
   exists o, forall rank, exists m, construct fac rank root_data f = Ok m /\
     (rank = o -> exists n, m (0 :: ds) = Some n /\ n_leaf n = true) /\
     (rank <> o -> m (0 :: ds) = None)) /\
  (forall rank m n, construct fac rank root_data f = Ok m -> m (0 :: ds) = Some n -> n_leaf n = true ->
     In ds (leaf_paths f)).
Proof.
  intros D fac root_data f ds FO C HL. split.
  - intros H. apply leaf_sub in H as (o & Es). exists o. intros rank.
    destruct (construct_node_map fac rank root_data f FO C HL) as (m & E & NM).
    exists m. split; [exact E|]. specialize (NM ds _ Es). cbn [leaf_here] in NM.
    change (pfirst (FLeaf o)) with o in NM. change (plast (FLeaf o)) with o in NM.
    destruct (in_range rank o o) eqn:Ei.
    + apply own_range in Ei. subst rank. rewrite Nat.eqb_refl in NM.
      destruct NM as (n & H & _ & _ & _ & _ & L). split; [eauto|congruence].
    + split; [|auto]. intros ->. pose proof (proj2 (own_range o o) eq_refl). congruence.
  - intros rank m n E Em El.
    destruct (construct_ok fac rank root_data f C HL) as (m' & E' & X & _).
    rewrite E in E'. injection E' as <-. pose proof Em as Em'. rewrite X in Em'. unfold expected in Em'.
    destruct (sub f ds) as [f'|] eqn:Es; [|discriminate].
    destruct (construct_node_map fac rank root_data f FO C HL) as (m' & E' & NM).
    rewrite E in E'. injection E' as <-. specialize (NM ds f' Es).
    destruct (in_range rank (pfirst f') (plast f')); [|discriminate].
    destruct NM as (n' & En & _ & _ & _ & _ & L). rewrite Em in En. injection En as <-.
    rewrite El in L. destruct f' as [o|]; [|discriminate]. apply leaf_sub. eauto.
Qed.

(** Rank 1 of the example: it has the root, the refined quadrant and its leaves 1,
    2, 3, nothing else. *)
Lemma ownership_example_expf :
  factory_ok fv_factory /\
  match construct fv_factory 1 ex_root ex_forest with
  | Ok m => map (fun p => match m p with Some n => [n_pfirst n; n_plast n] | None => [] end)
                [[0]; [0;0]; [0;1]; [0;2]; [0;3]; [0;1;0]; [0;1;1]; [0;1;2]; [0;1;3]]
            = [[0;2]; []; [0;1]; []; []; []; [1;1]; [1;1]; [1;1]]
  | _ => False
  end.
Proof. split; [exact fv_factory_ok|vm_compute; reflexivity]. Qed.

(** ** Order of visits *)
Section order.
Context {D S : Type}.

Lemma pre_result rank F m s (cb : @callback D (S * log) (S * log * nmap D)) :
  contiguous F -> depth F <= qmaxlevel -> node_map rank F m -> records rank F (node_map rank F) cb ->
  exists r, search_reorder rank cb no_callback F root_quadrant ((s, []), m) finish = Fin r /\
    forall s' L m', r = Ok ((s', L), m') -> preorder_log rank F L /\ node_map rank F m'.
Proof.
  intros C HL NM HR.
  destruct (pre_all rank F (node_map rank F) cb HR F [] root_quadrant s [] m eq_refl root_valid eq_refl HL NM) as (r & E & H).
  exists (x <- r ;; Ok ((fst (fst x), shift [0] (snd x)), snd (fst x))).
  split; [rewrite E; unfold finish, lift; destruct r; reflexivity|].
  intros s' L m' Er. destruct r as [x|e|]; try discriminate. injection Er as <- <- <-.
  destruct (H x eq_refl) as [NM' PR]. split; [|exact NM']. exists (snd x). split; [reflexivity|]. exact PR.
Qed.

Lemma post_result rank F m s (cb : @callback D (S * log) (S * log * nmap D)) :
  contiguous F -> depth F <= qmaxlevel -> node_map rank F m -> records rank F (node_map rank F) cb ->
  exists r, search_reorder rank no_callback cb F root_quadrant ((s, []), m) finish = Fin r /\
    forall s' L m', r = Ok ((s', L), m') -> postorder_log rank F L /\ node_map rank F m'.
Proof.
  intros C HL NM HR.
  destruct (post_all rank F (node_map rank F) cb HR F [] root_quadrant s [] m eq_refl root_valid eq_refl HL NM) as (r & E & H).
  exists (x <- r ;; Ok ((fst (fst x), shift [0] (snd x)), snd (fst x))).
  split; [rewrite E; unfold finish, lift; destruct r; reflexivity|].
  intros s' L m' Er. destruct r as [x|e|]; try discriminate. injection Er as <- <- <-.
  destruct (H x eq_refl) as [NM' PR]. split; [|exact NM']. exists (snd x). split; [reflexivity|]. exact PR.
Qed.
End order.

(** [C35] Pre-order traversal on any rank, with any callback (which may stop the
    descent, change data and its own state, or fail): the record of the visits
    lists the quadrants that contain a leaf of the rank and below which the
    callback did not stop, once each, parents before children, siblings in the
    order 0,1,2,3.  Post-order: all quadrants that contain a leaf of the rank,
    once each, children before parents.  Neither communicates. *)
Lemma traversal_order_partial_pf : forall {D S} rank F (m : nmap D) (fn : S -> qnode D -> res (S * D * bool)) s,
  contiguous F -> depth F <= qmaxlevel -> node_map rank F m ->
  (exists r, traversePreOrder rank (logged fn) F ((s, []), m) finish = Fin r /\
     forall s' L m', r = Ok ((s', L), m') -> preorder_log rank F L /\ node_map rank F m') /\
  (exists r, traversePostOrder rank (logged fn) F ((s, []), m) finish = Fin r /\
     forall s' L m', r = Ok ((s', L), m') -> postorder_log rank F L /\ node_map rank F m').
Proof.
  intros D S rank F m fn s C HL NM. split.
  - apply pre_result; auto. apply visit_records. exact C.
  - apply post_result; auto. apply visit_records. exact C.
Qed.

(** [C35] merge and split on a rank that owns the whole tree (serial run): post-order
    and pre-order. *)
Lemma merge_split_order_partial_pf : forall {D S} rank F (m : nmap D) pol dflt
  (fn : S -> qnode D -> res (S * D * bool)) (fam : S -> qnode D -> four (qnode D) -> res (S * D * four D * bool)) s,
  contiguous F -> depth F <= qmaxlevel -> node_map rank F m -> pfirst F = rank -> plast F = rank ->
  (exists r, merge rank pol dflt (logged fn) (logged_family fam) F ((s, []), m) finish = Fin r /\
     forall s' L m', r = Ok ((s', L), m') -> postorder_log rank F L /\ node_map rank F m') /\
  (exists r, split rank pol dflt (logged fn) (logged_family fam) F ((s, []), m) finish = Fin r /\
     forall s' L m', r = Ok ((s', L), m') -> preorder_log rank F L /\ node_map rank F m').
Proof.
  intros D S rank F m pol dflt fn fam s C HL NM P1 P2. split.
  - apply post_result; auto. apply merge_split_records; auto.
  - apply pre_result; auto. apply merge_split_records; auto.
Qed.

(** [C35] The traversals with a callback on data are the traversals with the
    callback on nodes that applies it to the node's data and returns 1. *)
Lemma data_traversals_pf : forall {D S} rank F (fn : S -> D -> res (S * D)) (st : S * nmap D),
  traversePreOrder_data rank fn F st finish
  = traversePreOrder rank (fun s n => r <- fn s (n_data n) ;; Ok (fst r, snd r, true)) F st finish /\
  traversePostOrder_data rank fn F st finish
  = traversePostOrder rank (fun s n => r <- fn s (n_data n) ;; Ok (fst r, snd r, true)) F st finish.
Proof.
  intros D S rank F fn st. split.
  - destruct (search_local (R := S * nmap D) rank _ _ _ _ F (data_local rank fn) no_callback_local root_quadrant st) as (r & H).
    destruct (H finish) as [H1 H2]. etransitivity; [exact H1|symmetry; exact H2].
  - destruct (search_local (R := S * nmap D) rank _ _ _ _ F no_callback_local (data_local rank fn) root_quadrant st) as (r & H).
    destruct (H finish) as [H1 H2]. etransitivity; [exact H1|symmetry; exact H2].
Qed.

(** [C35] The leaves appear in the same order, that of the space-filling curve, in
    every post-order record and in every pre-order record without a stop above
    them. *)
Lemma leaves_same_order_pf : forall rank F,
  (forall L, postorder_log rank F L ->
     filter (fun p => leaf_path F (tl p)) (map fst L) = map (cons 0) (filter (own_leaf rank F) (leaf_paths F))) /\
  (forall L, preorder_log rank F L -> (forall p c, In (p, c) L -> leaf_path F (tl p) = false -> c = true) ->
     filter (fun p => leaf_path F (tl p)) (map fst L) = map (cons 0) (filter (own_leaf rank F) (leaf_paths F))).
Proof.
  intros rank F.
  assert (FM : forall l : list (list nat * bool), filter (fun p => leaf_path F (tl p)) (map fst (map (fun e => (0 :: fst e, snd e)) l))
    = map (cons 0) (filter (leaf_path F) (map fst l))).
  { induction l as [|e l IH]; [reflexivity|]. cbn [map filter fst tl]. destruct (leaf_path F (fst e)); cbn [map]; rewrite IH; reflexivity. }
  split.
  - intros L (l & -> & S1 & S2). rewrite FM. f_equal.
    apply (leaf_order rank F _ before_post); [apply post_before_leaf|exact S1|]. intros ds _. apply S2.
  - intros L (l & -> & S1 & S2) Hc. rewrite FM. f_equal.
    apply (leaf_order rank F _ before); [auto|exact S1|]. intros ds Hl. rewrite S2. split; [intros [H _]; exact H|].
    intros H. split; [exact H|].
    assert (X : forall n ds1 i ds2, length ds1 = n -> ds = ds1 ++ i :: ds2 -> In (ds1, true) l).
    { induction n as [n IH] using (well_founded_induction lt_wf). intros ds1 i ds2 Hn E.
      assert (Hin : In ds1 (map fst l)).
      { apply S2. split.
        - destruct H as (f' & Es & Hr). subst ds. clear - Es Hr.
          assert (Q : exists g, sub F ds1 = Some g /\ sub g (i :: ds2) = Some f').
          { clear Hr. revert F Es. induction ds1 as [|j ds1 IH]; intros F Es; [exists F; auto|].
            cbn [app sub] in *. destruct (fchild F j) as [g|]; [|discriminate]. exact (IH g Es). }
          destruct Q as (g & Q1 & Q2). exists g. split; [exact Q1|]. apply (owners_sub g (i :: ds2) f'); auto.
        - intros d1 j d2 E1. apply (IH (length d1)) with (i := j) (ds2 := d2 ++ i :: ds2); auto.
          + subst ds1 n. rewrite app_length. cbn. lia.
          + subst ds ds1. rewrite <- app_assoc. reflexivity. }
      apply in_map_iff in Hin as ([d c] & Ed & Hin). cbn in Ed. subst d.
      assert (c = true); [|subst c; exact Hin].
      apply (Hc (0 :: ds1) c).
      - apply in_map_iff. exists (ds1, c). auto.
      - cbn [tl]. unfold leaf_path. destruct (sub F ds1) as [[o|]|] eqn:Es; auto. exfalso.
        unfold leaf_path in Hl. subst ds. rewrite (sub_app F ds1 (i :: ds2) _ Es) in Hl. cbn in Hl. discriminate. }
    intros ds1 i ds2 E. apply (X (length ds1) ds1 i ds2 eq_refl E).
Qed.

(** [C35] A rank that owns at least one leaf has a node exactly for the quadrants
    that contain one of its leaves; so its traversals visit every node it owns. *)
Lemma traversals_visit_owned_partial_pf : forall rank F ds, contiguous F -> In rank (owners F) ->
  (owned_quadrant rank F ds <-> local_quadrant rank F ds).
Proof. exact owned_local. Qed.

(** [C35] A rank without leaves whose number lies between those of ranks with leaves
    owns nodes (it has an object for them), but its traversals visit nothing. *)
Lemma traversal_visits_every_owned_node_refuted_pf :
  exists rank F (m : nmap patch), contiguous F /\ depth F <= qmaxlevel /\
    construct fv_factory rank ex_root F = Ok m /\ owned_quadrant rank F [] /\ (exists n, m [0] = Some n) /\
    forall (fn : unit -> qnode patch -> res (unit * patch * bool)),
      traversePreOrder rank (logged fn) F ((tt, []), m) finish = Fin (Ok ((tt, []), m)) /\
      traversePostOrder rank (logged fn) F ((tt, []), m) finish = Fin (Ok ((tt, []), m)).
Proof.
  set (F := FNode (FLeaf 0) (FLeaf 0) (FLeaf 2) (FLeaf 2)).
  assert (C : contiguous F) by (repeat constructor).
  assert (HL : depth F <= qmaxlevel) by (vm_compute; repeat constructor).
  destruct (ownership_pf fv_factory 1 ex_root F fv_factory_ok C HL) as (m & E & _ & OW & _).
  assert (O : owned_quadrant 1 F []).
  { exists F, 0, 2. split; [reflexivity|]. cbn. split; [auto|]. split; [auto|lia]. }
  exists 1, F, m. split; [exact C|]. split; [exact HL|]. split; [exact E|]. split; [exact O|].
  split; [apply OW; exact O|]. intros fn. split; reflexivity.
Qed.

(** Rank 1 of the example tree, a callback that counts: pre-order and post-order. *)
Definition count_fn : nat -> qnode patch -> res (nat * patch * bool) := fun s n => Ok (S s, n_data n, true).
Lemma traversal_order_example_expf :
  match construct fv_factory 1 ex_root ex_forest with
  | Ok m => match traversePreOrder 1 (logged count_fn) ex_forest ((0, []), m) finish,
                  traversePostOrder 1 (logged count_fn) ex_forest ((0, []), m) finish with
            | Fin (Ok (p, _)), Fin (Ok (q, _)) =>
                p = (5, [([0], true); ([0;1], true); ([0;1;1], true); ([0;1;2], true); ([0;1;3], true)]) /\
                q = (5, [([0;1;1], true); ([0;1;2], true); ([0;1;3], true); ([0;1], true); ([0], true)])
            | _, _ => False
            end
  | _ => False
  end.
Proof. vm_compute. auto. Qed.

(** ** The map as a tree *)
Section mapping.
Context {D S : Type}.

(** What running a program on the map means: result of the recursion and a map
    holding the resulting tree, other keys unchanged. *)
Definition on_map_as_tree (F : forest) (m : nmap D) (prog : cmd D (S * nmap D)) (r : res (S * qtree (qnode D))) : Prop :=
  match r with
  | Ok (s', t') => exists m', prog = Fin (Ok (s', m')) /\ tree_in m' [0] t' /\ same_shape F t' /\
                   (forall k, (forall ds, k <> 0 :: ds) -> m' k = m k)
  | Throw e => prog = Fin (Throw e)
  | UB => prog = Fin UB
  end.

Lemma agrees_on_map rank F m prog r :
  agrees rank (R := S * nmap D) [0] F m prog r -> on_map_as_tree F m (prog finish) r.
Proof.
  unfold agrees, on_map_as_tree. destruct r as [[s' t']|e|]; auto.
  intros (m' & E & T & _ & Sh & O). exists m'. split; [rewrite E; reflexivity|]. split; [exact T|]. split; [exact Sh|].
  intros k Hk. apply O. intros ds. apply Hk.
Qed.
End mapping.

(** [C36] A rank that owns the whole tree: the map holds a tree of nodes of the
    shape of the forest, and merge (split) on the map computes the recursive
    merge (split) of that tree, whatever the callbacks do (change data and state,
    stop the descent, throw). *)
Lemma map_behaves_like_tree_pf : forall {D S} rank F (m : nmap D) pol dflt
  (fn : S -> qnode D -> res (S * D * bool)) (fam : S -> qnode D -> four (qnode D) -> res (S * D * four D * bool)) s,
  contiguous F -> depth F <= qmaxlevel -> node_map rank F m -> pfirst F = rank -> plast F = rank ->
  exists t, tree_in m [0] t /\ same_shape F t /\
    on_map_as_tree F m (merge rank pol dflt fn fam F (s, m) finish) (rec_merge (on_node fn) (on_family fam) s t) /\
    on_map_as_tree F m (split rank pol dflt fn fam F (s, m) finish) (rec_split (on_node fn) (on_family fam) s t (label t)).
Proof.
  intros D S rank F m pol dflt fn fam s C HL NM P1 P2.
  destruct (tree_exists rank F m C P1 P2 NM F [] eq_refl) as (t & T & Sh).
  pose proof (node_map_located rank F m C P1 P2 NM F [] t eq_refl Sh T) as Lo.
  exists t. split; [exact T|]. split; [exact Sh|]. split.
  - apply (agrees_on_map rank). apply merge_single; auto. apply root_valid.
  - apply (agrees_on_map rank). apply split_single; auto. apply root_valid.
Qed.

(** [C36] The three stages of the direct solver on the map are the stages on the
    tree of patches. *)
Lemma stages_on_map_pf : forall rank F (m : nmap patch) pol dflt sv gesv cache hom load g st,
  contiguous F -> depth F <= qmaxlevel -> node_map rank F m -> pfirst F = rank -> plast F = rank ->
  exists t, tree_in m [0] t /\ same_shape F t /\
    match buildStage sv gesv cache st (patches t) with
    | Ok (st', T) => exists m' t',
        merge rank pol dflt (leaf_cb (build_leaf sv cache)) (fam_cb (merge4to1 gesv)) F (st, m) finish = Fin (Ok (st', m'))
        /\ tree_in m' [0] t' /\ patches t' = T
    | Throw e => merge rank pol dflt (leaf_cb (build_leaf sv cache)) (fam_cb (merge4to1 gesv)) F (st, m) finish = Fin (Throw e)
    | UB => merge rank pol dflt (leaf_cb (build_leaf sv cache)) (fam_cb (merge4to1 gesv)) F (st, m) finish = Fin UB
    end /\
    match upwardsStage sv gesv hom load (patches t) with
    | Ok T => exists m' t',
        merge rank pol dflt (leaf_cb (up_leaf sv load)) (fam_cb (upwards4to1 gesv hom)) F (tt, m) finish = Fin (Ok (tt, m'))
        /\ tree_in m' [0] t' /\ patches t' = T
    | Throw e => merge rank pol dflt (leaf_cb (up_leaf sv load)) (fam_cb (upwards4to1 gesv hom)) F (tt, m) finish = Fin (Throw e)
    | UB => merge rank pol dflt (leaf_cb (up_leaf sv load)) (fam_cb (upwards4to1 gesv hom)) F (tt, m) finish = Fin UB
    end /\
    match solveStage sv hom g (patches t) with
    | Ok T => exists m' t',
        split rank pol dflt (leaf_cb (fun s p => q <- leafSolve sv hom p ;; Ok (s, q))) (fam_cb (split1to4 hom)) F
          (tt, put_child m [0] (set_g (data (patches t)) g)) finish = Fin (Ok (tt, m'))
        /\ tree_in m' [0] t' /\ patches t' = T
    | Throw e => split rank pol dflt (leaf_cb (fun s p => q <- leafSolve sv hom p ;; Ok (s, q))) (fam_cb (split1to4 hom)) F
          (tt, put_child m [0] (set_g (data (patches t)) g)) finish = Fin (Throw e)
    | UB => split rank pol dflt (leaf_cb (fun s p => q <- leafSolve sv hom p ;; Ok (s, q))) (fam_cb (split1to4 hom)) F
          (tt, put_child m [0] (set_g (data (patches t)) g)) finish = Fin UB
    end.
Proof.
  intros rank F m pol dflt sv gesv cache hom load g st C HL NM P1 P2.
  destruct (tree_exists rank F m C P1 P2 NM F [] eq_refl) as (t & T & Sh).
  pose proof (node_map_located rank F m C P1 P2 NM F [] t eq_refl Sh T) as Lo.
  exists t. split; [exact T|]. split; [exact Sh|]. split; [|split].
  - unfold buildStage. rewrite <- rec_merge_patches.
    pose proof (merge_single (R := option (matrix Qc) * nmap patch) rank pol dflt (leaf_cb (build_leaf sv cache)) (fam_cb (merge4to1 gesv))
      F root_quadrant [0] st m t C P1 P2 root_valid eq_refl HL Sh Lo T) as A. apply agrees_on_map in A.
    unfold on_map_as_tree in A. destruct (rec_merge _ _ st t) as [[s' t']|e|]; cbn [bind fst snd]; auto.
    destruct A as (m' & E & T' & _). eauto.
  - unfold upwardsStage. rewrite <- rec_merge_patches.
    pose proof (merge_single (R := unit * nmap patch) rank pol dflt (leaf_cb (up_leaf sv load)) (fam_cb (upwards4to1 gesv hom))
      F root_quadrant [0] tt m t C P1 P2 root_valid eq_refl HL Sh Lo T) as A. apply agrees_on_map in A.
    unfold on_map_as_tree in A. destruct (rec_merge _ _ tt t) as [[[] t']|e|]; cbn [bind fst snd]; auto.
    destruct A as (m' & E & T' & _). eauto.
  - unfold solveStage.
    set (t1 := relabel t (set_ndata (label t) (set_g (data (patches t)) g))).
    assert (NM1 : node_map rank F (put_child m [0] (set_g (data (patches t)) g))) by (apply node_map_put; exact NM).
    assert (T0 : m [0] = Some (label t)) by (destruct t; [exact T|exact (proj1 T)]).
    assert (T1 : tree_in (put_child m [0] (set_g (data (patches t)) g)) [0] t1).
    { unfold t1. apply (tree_in_relabel m); [exact T| |].
      - rewrite (put_child_eq m [0] (label t)) by exact T0. reflexivity.
      - intros i ds. apply put_child_neq. cbn. discriminate. }
    assert (Sh1 : same_shape F t1) by (apply shape_rm; exact Sh).
    pose proof (node_map_located rank F _ C P1 P2 NM1 F [] t1 eq_refl Sh1 T1) as Lo1.
    pose proof (split_single (R := unit * nmap patch) rank pol dflt (leaf_cb (fun s p => q <- leafSolve sv hom p ;; Ok (s, q))) (fam_cb (split1to4 hom))
      F root_quadrant [0] tt _ t1 C P1 P2 root_valid eq_refl HL Sh1 Lo1 T1) as A. apply agrees_on_map in A.
    unfold t1 in A. rewrite rec_split_relabel, label_relabel in A.
    pose proof (rec_split_patches (leafSolve sv hom) (split1to4 hom) t (set_ndata (label t) (set_g (data (patches t)) g))) as R.
    cbn [n_data set_ndata] in R. rewrite <- R. clear R.
    unfold on_map_as_tree in A. destruct (rec_split _ _ tt t _) as [[[] t']|e|]; cbn [bind fst snd]; auto.
    destruct A as (m' & E & T' & _). eauto.
Qed.

(** A family callback that stores in the parent the number of nodes below it, on
    five leaves of one rank: the recursion and the program agree. *)
Definition one_rank : forest :=
  FNode (FLeaf 0) (FNode (FLeaf 0) (FLeaf 0) (FLeaf 0) (FLeaf 0)) (FLeaf 0) (FLeaf 0).
Definition nat_factory : factory nat :=
  Factory (fun d p l a b => QNode d p l a b false)
          (fun par i a b => QNode 0 (n_path par ++ [i]) (S (n_level par)) a b false).
Definition size_leaf : unit -> qnode nat -> res (unit * nat * bool) := fun s n => Ok (s, 1, true).
Definition size_fam : unit -> qnode nat -> four (qnode nat) -> res (unit * nat * four nat * bool) :=
  fun s n ch => Ok (s, 1 + n_data (fa ch) + n_data (fb ch) + n_data (fc ch) + n_data (fd ch),
                    Four (n_data (fa ch)) (n_data (fb ch)) (n_data (fc ch)) (10 * n_data (fd ch)), true).
Lemma map_behaves_like_tree_example_expf :
  match construct nat_factory 0 0 one_rank with
  | Ok m => match merge 0 BROADCAST 0 size_leaf size_fam one_rank (tt, m) finish with
            | Fin (Ok (_, m')) =>
                map (fun p => match m' p with Some n => n_data n | None => 99 end)
                    [[0]; [0;0]; [0;1]; [0;1;0]; [0;1;3]; [0;3]; [1]] = [9; 1; 5; 1; 10; 10; 99]
            | _ => False
            end
  | _ => False
  end /\ contiguous one_rank /\ pfirst one_rank = 0 /\ plast one_rank = 0.
Proof. split; [vm_compute; reflexivity|]. split; [repeat constructor|]. split; reflexivity. Qed.
