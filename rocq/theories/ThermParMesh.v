(** The tree that the constructor builds, as a mesh. *)
From Verif Require Import Base VectorModel MatrixModel LinSpec HPSModel HPSSpec FVModel GlobalSpec AdaptSpec
  TreeModel TreeSpec TreeProofs TreeCtor TreeOrder TreeMap ParModel ParSpec ParProofs ParStages ParProps ThermParModel ThermParSpec ThermParProofs.

(** The patches of the constructed tree. *)
Fixpoint starting (F : forest) (p : patch) : tree :=
  match F with
  | FLeaf _ => Leaf p
  | FNode a b c d =>
      let q i := new_patch (child_grid (pgrid p) i) in
      Node p (starting a (q 0)) (starting b (q 1)) (starting c (q 2)) (starting d (q 3))
  end.

Lemma starting_patches : forall F n p (m : nmap patch) t,
  (forall ds, m (p ++ ds) = expected fv_factory 0 n (serial F) ds) -> tree_in m p t -> same_shape (serial F) t ->
  patches t = starting F (n_data n).
Proof.
  induction F as [o|a IHa b IHb c IHc d IHd]; intros n p m t H T S; destruct t as [x|x t0 t1 t2 t3]; cbn [serial same_shape] in S; try contradiction.
  - specialize (H []). rewrite app_nil_r in H. cbn [tree_in] in T. rewrite T in H. injection H as ->. reflexivity.
  - cbn [tree_in] in T. destruct T as (T & T0 & T1 & T2 & T3). destruct S as (S0 & S1 & S2 & S3).
    assert (X : x = n).
    { pose proof (H []) as E. rewrite app_nil_r, T in E. unfold expected in E. cbn [sub] in E. rewrite serial_first, serial_last in E.
      injection E as ->. reflexivity. }
    assert (K : forall i f', fchild (serial (FNode a b c d)) i = Some f' ->
      forall ds, m ((p ++ [i]) ++ ds) = expected fv_factory 0 (child_node fv_factory 0 n i f') f' ds).
    { intros i f' E ds. rewrite <- app_assoc. cbn [app]. rewrite H. apply expected_cons. exact E. }
    subst x. cbn [patches starting]. f_equal.
    + exact (IHa _ _ _ _ (K 0 _ eq_refl) T0 S0).
    + exact (IHb _ _ _ _ (K 1 _ eq_refl) T1 S1).
    + exact (IHc _ _ _ _ (K 2 _ eq_refl) T2 S2).
    + exact (IHd _ _ _ _ (K 3 _ eq_refl) T3 S3).
Qed.

(** Construction on one rank. *)
Lemma constructed_tree F rd : contiguous F -> depth F <= qmaxlevel ->
  exists m0 t0, construct fv_factory 0 rd (serial F) = Ok m0 /\ node_map 0 (serial F) m0 /\
    holds (serial F) m0 t0 /\ patches t0 = starting F rd.
Proof.
  intros C HL.
  destruct (construct_node_map fv_factory 0 rd (serial F) fv_factory_ok (serial_contiguous F) (serial_level F HL)) as (m0 & E & NM).
  destruct (construct_ok fv_factory 0 rd (serial F) (serial_contiguous F) (serial_level F HL)) as (m1 & E1 & X & _).
  rewrite E in E1. injection E1 as <-.
  destruct (tree_exists 0 (serial F) m0 (serial_contiguous F) (serial_first F) (serial_last F) NM (serial F) [] eq_refl) as (t & T & S).
  exists m0, t. split; [exact E|]. split; [exact NM|]. split.
  - split; [exact T|]. split; [|exact S].
    exact (node_map_located 0 (serial F) m0 (serial_contiguous F) (serial_first F) (serial_last F) NM (serial F) [] t eq_refl S T).
  - exact (starting_patches F (root_node fv_factory 0 rd (serial F)) [0] m0 t X T S).
Qed.

(** The leaves of a tree in a map. *)
Lemma forall2_map {A B C} (f : A -> B) (R : B -> C -> Prop) l l' : Forall2 (fun x y => R (f x) y) l l' -> Forall2 R (map f l) l'.
Proof. induction 1; cbn; constructor; auto. Qed.
Lemma forall2_weaken {A B} (R R' : A -> B -> Prop) l l' : (forall x y, R x y -> R' x y) -> Forall2 R l l' -> Forall2 R' l l'.
Proof. intros H. induction 1; constructor; auto. Qed.
Lemma leaves_in : forall F (m : nmap patch) p t, tree_in m p t -> same_shape F t ->
  Forall2 (fun ds q => exists n, m (p ++ ds) = Some n /\ n_data n = q) (leaf_paths F) (tree_leaves (patches t)).
Proof.
  induction F as [o|a IHa b IHb c IHc d IHd]; intros m p t T S; destruct t as [x|x t0 t1 t2 t3]; cbn [same_shape] in S; try contradiction.
  - constructor; [|constructor]. exists x. rewrite app_nil_r. split; [exact T|reflexivity].
  - cbn [tree_in] in T. destruct T as (_ & T0 & T1 & T2 & T3). destruct S as (S0 & S1 & S2 & S3).
    assert (K : forall f (u : TreeSpec.qtree (qnode patch)) i,
      Forall2 (fun ds q => exists n, m ((p ++ [i]) ++ ds) = Some n /\ n_data n = q) (leaf_paths f) (tree_leaves (patches u)) ->
      Forall2 (fun ds q => exists n, m (p ++ ds) = Some n /\ n_data n = q) (map (cons i) (leaf_paths f)) (tree_leaves (patches u))).
    { intros f u i H. apply forall2_map. eapply forall2_weaken; [|exact H]. cbv beta. intros ds q (n & E & Q). exists n.
      rewrite <- app_assoc in E. auto. }
    cbn [leaf_paths patches tree_leaves]. repeat apply Forall2_app; apply K; auto.
Qed.
Lemma serial_paths F : leaf_paths (serial F) = leaf_paths F.
Proof. induction F; cbn [serial leaf_paths]; congruence. Qed.

(** What a rank with the serial data holds. *)
Lemma values_of_same F r m m0 t : node_map r F m -> same_data F m m0 -> tree_in m0 [0] t -> same_shape (serial F) t ->
  has_values r F m (map snd (computed_values (patches t))).
Proof.
  intros NM SD T S. pose proof (leaves_in _ _ _ _ T S) as H. rewrite serial_paths in H. unfold has_values, computed_values.
  rewrite map_map. cbn [snd]. induction H as [|ds q l l' (n & E & Q) H IH]; cbn [map]; constructor; [|exact IH].
  intros Es. pose proof (NM ds _ Es) as X. cbn [pfirst plast owners hd last] in X.
  unfold pfirst, plast in X. cbn in X. unfold in_range in X. rewrite Nat.leb_refl in X. cbn [andb] in X. destruct X as (x & Ex & _).
  exists x. split; [exact Ex|]. destruct (SD ds x) as (n0 & E0 & Ed); [rewrite Es; discriminate|exact Ex|].
  cbn [app] in E. rewrite E in E0. injection E0 as <-. rewrite Ed, Q. reflexivity.
Qed.

(** The mesh. *)
Lemma q2_two : q2 = (1 + 1)%Qc.
Proof. apply Qc_is_canon. reflexivity. Qed.
Definition zero_load (G : grid) : list Qc := zeros (gnx G * gny G).
Lemma mesh_tiled m : forall F G, tiled m G (mesh m F G).
Proof.
  induction F as [o|a IHa b IHb c IHc d IHd]; intros G; cbn [mesh tiled]; auto. split; [reflexivity|]. apply repeat_length.
Qed.
Lemma child_quarter m G i b1 b2 : (i, b1, b2) = (0, false, false) \/ (i, b1, b2) = (1, true, false) \/
  (i, b1, b2) = (2, false, true) \/ (i, b1, b2) = (3, true, true) -> child_grid (rect m G) i = rect m (quarter m G b1 b2).
Proof.
  intros [H|[H|[H|H]]]; injection H as -> -> ->; unfold child_grid, quarter, rect; cbn [gnx gny gxl gxu gyl gyu]; rewrite q2_two; reflexivity.
Qed.
Lemma mesh_fresh m : forall F G p, pgrid p = rect m G -> pnc p = 0 -> fresh zero_load (mesh m F G) (starting F p).
Proof.
  induction F as [o|a IHa b IHb c IHc d IHd]; intros G p Hp Hc; cbn [mesh starting fresh]; [repeat split; auto|].
  split; [exact Hc|]. rewrite Hp. split; [apply IHa|split; [apply IHb|split; [apply IHc|apply IHd]]]; try reflexivity; apply child_quarter; auto.
Qed.
Lemma mesh_uniform m : forall l F G, all_at l F -> uniform m l (Grid (m * 2 ^ l) (m * 2 ^ l) (gxl G) (gxu G) (gyl G) (gyu G)) (mesh m F G).
Proof.
  induction l as [|l IH]; intros F G H; destruct F as [o|a b c d]; cbn [all_at] in H; try contradiction.
  - cbn [mesh uniform]. unfold rect. cbn [Nat.pow]. rewrite Nat.mul_1_r. reflexivity.
  - destruct H as (A & B & C & D). cbn [mesh uniform]. cbv zeta.
    split; [exact (IH a (quarter m G false false) A)|]. split; [exact (IH b (quarter m G true false) B)|].
    split; [exact (IH c (quarter m G false true) C)|exact (IH d (quarter m G true true) D)].
Qed.
