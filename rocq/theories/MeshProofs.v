(** Proofs about refinement, exported arrays, mesh functions. *)
From Verif Require Import Base VectorModel MatrixModel HPSModel MatProofs MatProofs2 TreeModel TreeSpec TreeProofs TreeTile TreeCtor TreeOrder TreeMap TreeOrder2 MeshModel MeshSpec.

(** ** Walking over the leaves of a rank *)
Section walk.
Context {D S R : Type} (rank : nat) (F : forest) (m0 : nmap D).
Hypothesis C : contiguous F.
Hypothesis NM : node_map rank F m0.

Definition leaf_fn (h : S -> qnode D -> res S) : S -> qnode D -> res (S * D * bool) :=
  fun s n => if n_leaf n then s' <- h s n ;; Ok (s', n_data n, true) else Ok (s, n_data n, true).

Definition at_leaf (h : S -> qnode D -> res S) (s : S) (ds : list nat) : res S :=
  match m0 (0 :: ds) with Some n => h s n | None => Ok s end.

Lemma owned_node a b c d : owned_leaves rank (FNode a b c d) =
  map (cons 0) (owned_leaves rank a) ++ map (cons 1) (owned_leaves rank b) ++
  map (cons 2) (owned_leaves rank c) ++ map (cons 3) (owned_leaves rank d).
Proof.
  unfold owned_leaves. cbn [leaf_paths]. rewrite !filter_app.
  assert (E : forall i f l, (forall ds, sub (FNode a b c d) (i :: ds) = sub f ds) ->
    filter (fun ds => match sub (FNode a b c d) ds with Some (FLeaf o) => Nat.eqb o rank | _ => false end) (map (cons i) l)
    = map (cons i) (filter (fun ds => match sub f ds with Some (FLeaf o) => Nat.eqb o rank | _ => false end) l)).
  { intros i f l H. induction l as [|x l IH]; [reflexivity|]. cbn [map filter]. rewrite H, IH.
    destruct (sub f x) as [[o|]|]; try reflexivity. destruct (Nat.eqb o rank); reflexivity. }
  rewrite (E 0 a), (E 1 b), (E 2 c), (E 3 d) by reflexivity. reflexivity.
Qed.

Lemma owned_none f : has_local rank f = false -> owned_leaves rank f = [].
Proof.
  induction f as [o|a IHa b IHb c IHc d IHd]; intros H.
  - unfold owned_leaves. cbn. unfold has_local in H. cbn in H. rewrite orb_false_r in H.
    rewrite Nat.eqb_sym in H. rewrite H. reflexivity.
  - unfold has_local in H. cbn [owners] in H. rewrite !existsb_app in H.
    rewrite !orb_false_iff in H. destruct H as (H1 & H2 & H3 & H4).
    rewrite owned_node, IHa, IHb, IHc, IHd by assumption. reflexivity.
Qed.

Lemma owned_leaf o : has_local rank (FLeaf o) = true -> owned_leaves rank (FLeaf o) = [[]].
Proof.
  unfold has_local, owned_leaves. cbn. rewrite orb_false_r, Nat.eqb_sym. intros ->. reflexivity.
Qed.

Lemma set_same (n : qnode D) : set_ndata n (n_data n) = n.
Proof. destruct n. reflexivity. Qed.

Lemma visit_step h ds f q m : sub F ds = Some f -> has_local rank f = true ->
  quadrant_path q = 0 :: ds -> (forall p, m p = m0 p) ->
  exists m', (forall p, m' p = m0 p) /\
  forall s flag (k : _ -> cmd D R), search_visit rank (leaf_fn h) (s, m) q flag k =
    match f with
    | FLeaf _ => lift (at_leaf h s ds) (fun s' => k ((s', m'), true))
    | FNode _ _ _ _ => k ((s, m'), true)
    end.
Proof.
  intros Es Hl Ep Hm. assert (Cf : contiguous f) by (apply (contiguous_sub F ds); auto).
  apply has_local_iff in Hl. pose proof (local_in_range _ _ Cf Hl) as Hr.
  pose proof (NM ds f Es) as N. rewrite Hr in N. destruct N as (n & Hn & Hp & _ & Hpf & Hpl & Hlf).
  exists (mset m (0 :: ds) (Some n)). split.
  { intros p. unfold mset. destruct (path_eqb (0 :: ds) p) eqn:Eq; [|apply Hm].
    unfold path_eqb in Eq. destruct (list_eq_dec Nat.eq_dec (0 :: ds) p) as [<-|]; [auto|discriminate]. }
  intros s flag k. unfold search_visit. rewrite Ep. unfold mget. cbn [fst snd]. rewrite Hm, Hn, Hpf, Hpl, Hr.
  unfold leaf_fn. rewrite Hlf. destruct f as [o|a b c d]; cbn [leaf_here].
  - assert (E : Nat.eqb o rank = true). { cbn in Hl. destruct Hl as [<-|[]]. apply Nat.eqb_refl. }
    rewrite E. unfold at_leaf. rewrite Hn. rewrite lift_bind. apply lift_ext. intros s'. cbn [lift fst snd].
    rewrite set_same. reflexivity.
  - cbn [lift fst snd]. rewrite set_same. reflexivity.
Qed.

Lemma walk_sub h : forall f ds q m, sub F ds = Some f -> valid_quadrant q -> quadrant_path q = 0 :: ds ->
  qlevel q + depth f <= qmaxlevel -> (forall p, m p = m0 p) ->
  exists m', (forall p, m' p = m0 p) /\
  forall s (k : _ -> cmd D R), search_reorder rank (search_visit rank (leaf_fn h)) no_callback f q (s, m) k
    = lift (foldM (at_leaf h) (map (app ds) (owned_leaves rank f)) s) (fun s' => k (s', m')).
Proof.
  induction f as [o|a IHa b IHb c IHc d IHd]; intros ds q m Es V Ep HL Hm;
    cbn [search_reorder];
    (destruct (has_local rank _) eqn:HLo; [|exists m; split; [exact Hm|]; intros s k; rewrite owned_none by exact HLo; reflexivity]).
  - destruct (visit_step h ds _ q m Es HLo Ep Hm) as (m' & Hm' & E). exists m'. split; [exact Hm'|].
    intros s k. rewrite E. rewrite owned_leaf by exact HLo. cbn [map foldM]. rewrite app_nil_r.
    destruct (at_leaf h s ds); reflexivity.
  - destruct (visit_step h ds _ q m Es HLo Ep Hm) as (m1 & Hm1 & E).
    assert (K : forall i f', fchild (FNode a b c d) i = Some f' -> i < 4 -> depth f' < depth (FNode a b c d) ->
      sub F (ds ++ [i]) = Some f' /\ valid_quadrant (qchild q i) /\ quadrant_path (qchild q i) = 0 :: (ds ++ [i]) /\
      qlevel (qchild q i) + depth f' <= qmaxlevel).
    { intros i f' Ef Hi Hd. split; [rewrite (sub_app F ds [i] _ Es); cbn [sub]; rewrite Ef; reflexivity|].
      split; [apply valid_child; auto; lia|]. split; [rewrite path_child by (auto; lia); rewrite Ep; reflexivity|].
      cbn [qchild qlevel]. lia. }
    assert (Hd : depth a < depth (FNode a b c d) /\ depth b < depth (FNode a b c d) /\
      depth c < depth (FNode a b c d) /\ depth d < depth (FNode a b c d)) by (cbn [depth]; lia).
    destruct Hd as (Da & Db & Dc & Dd).
    destruct (K 0 a eq_refl ltac:(lia) Da) as (A1 & A2 & A3 & A4).
    destruct (K 1 b eq_refl ltac:(lia) Db) as (B1 & B2 & B3 & B4).
    destruct (K 2 c eq_refl ltac:(lia) Dc) as (C1 & C2 & C3 & C4).
    destruct (K 3 d eq_refl ltac:(lia) Dd) as (D1 & D2 & D3 & D4).
    destruct (IHa _ _ _ A1 A2 A3 A4 Hm1) as (m2 & Hm2 & Ea).
    destruct (IHb _ _ _ B1 B2 B3 B4 Hm2) as (m3 & Hm3 & Eb).
    destruct (IHc _ _ _ C1 C2 C3 C4 Hm3) as (m4 & Hm4 & Ec).
    destruct (IHd _ _ _ D1 D2 D3 D4 Hm4) as (m5 & Hm5 & Ed).
    exists m5. split; [exact Hm5|]. intros s k. rewrite E. cbn [fst snd].
    rewrite owned_node, !map_app, !map_map, !foldM_app.
    rewrite Ea.
    assert (M : forall i l, map (fun x => ds ++ i :: x) l = map (app (ds ++ [i])) l).
    { intros i l. apply map_ext. intros x. rewrite <- app_assoc. reflexivity. }
    rewrite !M, lift_bind. apply lift_ext. intros s1. rewrite foldM_app, Eb, lift_bind. apply lift_ext. intros s2.
    rewrite foldM_app, Ec, lift_bind. apply lift_ext. intros s3. rewrite Ed. reflexivity.
Qed.

Lemma walk h m : depth F <= qmaxlevel -> (forall p, m p = m0 p) ->
  exists m', (forall p, m' p = m0 p) /\
  forall s (k : _ -> cmd D R), traversePreOrder rank (leaf_fn h) F (s, m) k
    = lift (foldM (at_leaf h) (owned_leaves rank F) s) (fun s' => k (s', m')).
Proof.
  intros HL Hm. destruct (walk_sub h F [] root_quadrant m) as (m' & H1 & H2); auto.
  - apply root_valid.
  - exists m'. split; [exact H1|]. intros s k. unfold traversePreOrder. rewrite H2. 
    replace (map (app []) (owned_leaves rank F)) with (owned_leaves rank F); [reflexivity|].
    symmetry. apply map_id.
Qed.
End walk.

Lemma visit_ext {D S R} rank (fn1 fn2 : S -> qnode D -> res (S * D * bool)) : (forall s n, fn1 s n = fn2 s n) ->
  @same_local D S R (search_visit rank fn1) (search_visit rank fn2).
Proof.
  intros H [s m] q b. unfold search_visit, mget. cbn [fst snd].
  destruct (m (quadrant_path q)) as [n|]; [|exists (Ok ((s, m), true)); auto].
  destruct (in_range rank (n_pfirst n) (n_plast n)); [|exists (Ok ((s, m), true)); auto].
  exists (x <- fn1 s n ;; Ok ((fst (fst x), mset m (quadrant_path q) (Some (set_ndata n (snd (fst x))))), snd x)).
  intros k. rewrite !lift_bind, <- H. auto.
Qed.

Lemma traverse_ext {D S R} rank (fn1 fn2 : S -> qnode D -> res (S * D * bool)) F st (k : _ -> cmd D R) :
  (forall s n, fn1 s n = fn2 s n) -> traversePreOrder rank fn1 F st k = traversePreOrder rank fn2 F st k.
Proof.
  intros H. unfold traversePreOrder.
  destruct (search_local rank _ _ _ _ F (visit_ext (R:=R) rank fn1 fn2 H) no_callback_local root_quadrant st) as (r & Hr).
  rewrite (proj1 (Hr k)), (proj2 (Hr k)). reflexivity.
Qed.

(** Fold over the leaves as a fold over the patches. *)
Lemma fold_patches {S} rank F (m : nmap patch) ps (h : S -> patch -> res S) s : leaf_patches rank F m ps ->
  foldM (at_leaf m (fun s n => h s (n_data n))) (owned_leaves rank F) s = foldM h ps s.
Proof.
  unfold leaf_patches. intros H. revert s. induction H as [|ds p l ps (n & Hn & Hp) H IH]; intros s; [reflexivity|].
  cbn [foldM]. unfold at_leaf at 1. rewrite Hn, Hp. destruct (h s p); cbn; auto.
Qed.

Lemma leaf_patches_eq rank F (m m' : nmap patch) ps : (forall p, m' p = m p) ->
  leaf_patches rank F m ps -> leaf_patches rank F m' ps.
Proof.
  unfold leaf_patches. intros E H. induction H as [|ds p l ps' (n & Hn & Hp) H IH]; constructor; auto.
  exists n. rewrite E. auto.
Qed.

Lemma node_map_eq {D} rank F (m m' : nmap D) : (forall p, m' p = m p) -> node_map rank F m -> node_map rank F m'.
Proof. intros E H ds f Es. rewrite E. apply H. exact Es. Qed.

(** ** Arrays *)
Definition coords (c : cell) : list Qc :=
  [cx0 c; cy0 c; 0%Qc; cx1 c; cy0 c; 0%Qc; cx1 c; cy1 c; 0%Qc; cx0 c; cy1 c; 0%Qc].
Definition ext (cs : list cell) (st : nat * mesh) : nat * mesh :=
  let n := length cs in
  let M := snd st in
  (fst st + 4 * n, MkMesh (npoints M + 4 * n) (ncells M + n) (mpoints M ++ flat_map coords cs)
     (connectivity M ++ seq (fst st) (4 * n))
     (offsets M ++ map (fun p => 4 * S p) (seq (fst st) (4 * n))) (mtypes M ++ repeat 9 (4 * n))).

Lemma ext_nil st : ext [] st = st.
Proof. destruct st as [i M]. unfold ext. destruct M. cbn. rewrite !app_nil_r, !Nat.add_0_r. reflexivity. Qed.

Lemma ext_app c1 c2 st : ext c2 (ext c1 st) = ext (c1 ++ c2) st.
Proof.
  destruct st as [i M]. unfold ext. cbn [fst snd npoints ncells mpoints connectivity offsets mtypes].
  rewrite app_length, flat_map_app, !Nat.mul_add_distr_l, !seq_app, map_app, repeat_app, !app_assoc, !Nat.add_assoc.
  reflexivity.
Qed.

Lemma add_cell_ext G i j st : add_cell G i j st = ext [cell_of G i j] st.
Proof.
  destruct st as [n M]. unfold add_cell, ext, vappend, cell_of, gdx, gdy. cbn [fst snd length flat_map coords app cx0 cx1 cy0 cy1].
  replace [n + 0; n + 1; n + 2; n + 3] with (seq n (4 * 1)) by (cbn; repeat (f_equal; try lia)).
  replace [(n + 1) * 4; (n + 2) * 4; (n + 3) * 4; (n + 4) * 4] with (map (fun p => 4 * Datatypes.S p) (seq n (4 * 1)))
    by (cbn [Nat.mul Nat.add seq map]; repeat (f_equal; try lia)).
  rewrite !Nat.add_1_r. reflexivity.
Qed.

Lemma add_patch_ext G st : add_patch G st = ext (cells_of G) st.
Proof.
  unfold add_patch, cells_of. revert st. induction (seq 0 (gnx G)) as [|i l IH]; intros st; cbn [fold_left flat_map].
  - rewrite ext_nil. reflexivity.
  - rewrite IH, <- ext_app. f_equal. clear IH. revert st.
    induction (seq 0 (gny G)) as [|j l' IH']; intros st; cbn [fold_left map].
    + rewrite ext_nil. reflexivity.
    + rewrite IH', add_cell_ext, ext_app. reflexivity.
Qed.

(** ** Values at cells *)
Definition centres (G : grid) : list (Qc * Qc) :=
  flat_map (fun i => map (fun j => (gx G i, gy G j)) (seq 0 (gny G))) (seq 0 (gnx G)).

Lemma q2_nz : q2 <> 0%Qc.
Proof. intros H. apply (f_equal this) in H. vm_compute in H. discriminate. Qed.

Lemma centre_is G i j : cell_centre (cell_of G i j) = (gx G i, gy G j).
Proof.
  unfold cell_centre, cell_of, gx, gy, gdx, gdy. cbn [cx0 cx1 cy0 cy1]. rewrite !Qc_of_nat_S.
  change (Q2Qc (2 # 1)) with q2. pose proof q2_nz as N. rewrite two in *.
  set (w := ((gxu G - gxl G) / Qc_of_nat (gnx G))%Qc). set (h := ((gyu G - gyl G) / Qc_of_nat (gny G))%Qc).
  f_equal; field; exact N.
Qed.

Lemma centres_cells G : map cell_centre (cells_of G) = centres G.
Proof.
  unfold cells_of, centres. induction (seq 0 (gnx G)) as [|i l IH]; cbn [flat_map map]; [reflexivity|].
  rewrite map_app, IH, map_map. f_equal. apply map_ext. intros j. apply centre_is.
Qed.

Lemma cells_length G : length (cells_of G) = gnx G * gny G.
Proof.
  unfold cells_of. rewrite <- (seq_length (gnx G) 0) at 2.
  induction (seq 0 (gnx G)) as [|i l IH]; cbn [flat_map length]; [reflexivity|].
  rewrite app_length, map_length, seq_length, IH. reflexivity.
Qed.

Definition put (f : Qc -> Qc -> Qc) (s : nat * list Qc) (c : Qc * Qc) : res (nat * list Qc) :=
  v <- vset (snd s) (fst s) (f (fst c) (snd c)) ;; Ok (S (fst s), v).

Lemma loop_centres {S} (fn : S -> Qc -> Qc -> res S) G s :
  foldM (fun s i => let xc := gx G i in
    foldM (fun s j => let yc := gy G j in fn s xc yc) (seq 0 (gny G)) s) (seq 0 (gnx G)) s
  = foldM (fun s c => fn s (fst c) (snd c)) (centres G) s.
Proof.
  unfold centres. revert s. induction (seq 0 (gnx G)) as [|i l IH]; intros s; cbn [foldM flat_map]; [reflexivity|].
  rewrite foldM_app. cbv zeta.
  assert (E : foldM (fun s j => fn s (gx G i) (gy G j)) (seq 0 (gny G)) s =
     foldM (fun s c => fn s (fst c) (snd c)) (map (fun j => (gx G i, gy G j)) (seq 0 (gny G))) s).
  { clear. revert s. induction (seq 0 (gny G)) as [|j l IH]; intros s; cbn [foldM map fst snd]; [reflexivity|].
    destruct (fn s (gx G i) (gy G j)); cbn; auto. }
  rewrite E. destruct (foldM _ (map _ _) s); cbn; auto.
Qed.

Lemma put_all f cs done rest : length rest = length cs ->
  foldM (put f) cs (length done, done ++ rest) = Ok (length done + length cs, done ++ map (fun c => f (fst c) (snd c)) cs).
Proof.
  revert done rest; induction cs as [|c cs IH]; intros done [|r rest] HL'; try discriminate; cbn [foldM map length].
  - rewrite Nat.add_0_r. reflexivity.
  - unfold put at 1. cbn [fst snd].
    assert (E : vset (done ++ r :: rest) (length done) (f (fst c) (snd c)) = Ok ((done ++ [f (fst c) (snd c)]) ++ rest)).
    { rewrite vset_ok by (rewrite app_length; cbn [length]; lia). rewrite upd_app_mid, <- app_assoc. reflexivity. }
    rewrite E, bind_Ok. replace (Datatypes.S (length done)) with (length (done ++ [f (fst c) (snd c)])) by (rewrite app_length; cbn [length]; lia).
    cbn [bind]. rewrite IH by (cbn [length] in HL'; lia). rewrite app_length, <- app_assoc. cbn [length app]. f_equal. f_equal. lia.
Qed.

Lemma foldM_flat {A B S} (f : S -> B -> res S) (g : A -> list B) l s :
  foldM (fun s a => foldM f (g a) s) l s = foldM f (flat_map g l) s.
Proof.
  revert s; induction l as [|a l IH]; intros s; cbn [foldM flat_map]; [reflexivity|].
  rewrite foldM_app. destruct (foldM f (g a) s); cbn; auto.
Qed.

Section run.
Context {R : Type} (rank : nat) (F : forest).
Hypothesis C : contiguous F.
Hypothesis HL : depth F <= qmaxlevel.

Lemma walk_patches {S} (fn : S -> qnode patch -> res (S * patch * bool)) (h : S -> patch -> res S) (m : nmap patch) ps :
  node_map rank F m -> leaf_patches rank F m ps ->
  (forall s n, fn s n = if n_leaf n then s' <- h s (n_data n) ;; Ok (s', n_data n, true) else Ok (s, n_data n, true)) ->
  exists m', (forall p, m' p = m p) /\
  forall s (k : _ -> cmd patch R), traversePreOrder rank fn F (s, m) k = lift (foldM h ps s) (fun s' => k (s', m')).
Proof.
  intros NM LP E. destruct (walk (R:=R) rank F m C NM (fun s n => h s (n_data n)) m HL (fun _ => eq_refl)) as (m' & H1 & H2).
  exists m'. split; [exact H1|]. intros s k. rewrite (traverse_ext _ _ _ _ _ _ E). rewrite H2.
  rewrite (fold_patches _ _ _ ps) by exact LP. reflexivity.
Qed.

Lemma set_mesh (M : mesh) (m : nmap patch) ps : node_map rank F m -> leaf_patches rank F m ps ->
  exists m', (forall p, m' p = m p) /\
  forall k : _ -> cmd patch R, setMeshFromQuadtree rank F M m k = k (snd (ext (all_cells ps) (0, M)), m').
Proof.
  intros NM LP.
  destruct (walk_patches (fun s n => Ok (if n_leaf n then add_patch (pgrid (n_data n)) s else s, n_data n, true))
     (fun s p => Ok (add_patch (pgrid p) s)) m ps NM LP) as (m' & H1 & H2).
  { intros s n. destruct (n_leaf n); reflexivity. }
  exists m'. split; [exact H1|]. intros k. unfold setMeshFromQuadtree. rewrite H2.
  assert (E : forall st, foldM (fun s p => Ok (add_patch (pgrid p) s)) ps st = Ok (ext (all_cells ps) st)).
  { clear. unfold all_cells. induction ps as [|p ps IH]; intros st; cbn [foldM flat_map]; [rewrite ext_nil; reflexivity|].
    rewrite bind_Ok, IH, add_patch_ext, ext_app. reflexivity. }
  rewrite E. reflexivity.
Qed.

Lemma mesh_function (f : Qc -> Qc -> Qc) (m : nmap patch) ps : node_map rank F m -> leaf_patches rank F m ps ->
  exists m', (forall p, m' p = m p) /\
  forall k : _ -> cmd patch R, addMeshFunction rank f F m k
    = k (map (fun c => f (fst (cell_centre c)) (snd (cell_centre c))) (all_cells ps), m').
Proof.
  intros NM LP.
  destruct (walk_patches (fun (s : nat) n => if n_leaf n then r <- Ok (s + gnx (pgrid (n_data n)) * gny (pgrid (n_data n)), n_data n) ;; Ok (fst r, snd r, true) else Ok (s, n_data n, true))
     (fun s p => Ok (s + gnx (pgrid p) * gny (pgrid p))) m ps NM LP) as (m1 & H1 & H2).
  { intros s n. destruct (n_leaf n); reflexivity. }
  assert (NM1 := node_map_eq rank F m m1 H1 NM). assert (LP1 := leaf_patches_eq rank F m m1 ps H1 LP).
  destruct (walk_patches (fun (s : nat * list Qc) n => if n_leaf n then
         let G := pgrid (n_data n) in
         s' <- foldM (fun s i => let xc := gx G i in
                 foldM (fun s j => let yc := gy G j in put f s (xc, yc)) (seq 0 (gny G)) s) (seq 0 (gnx G)) s ;;
         Ok (s', n_data n, true) else Ok (s, n_data n, true))
     (fun s p => foldM (put f) (centres (pgrid p)) s) m1 ps NM1 LP1) as (m2 & H3 & H4).
  { intros s n. destruct (n_leaf n); [|reflexivity]. cbv zeta.
    rewrite (loop_centres (fun s x y => put f s (x, y))). reflexivity. }
  exists m2. split; [intros p; rewrite H3; apply H1|]. intros k. unfold addMeshFunction, iteratePatches, iterateCells.
  rewrite H2.
  assert (E : forall s, foldM (fun s p => Ok (s + gnx (pgrid p) * gny (pgrid p))) ps s = Ok (s + length (all_cells ps))).
  { clear. unfold all_cells. induction ps as [|p ps IH]; intros s; cbn [foldM flat_map]; [rewrite Nat.add_0_r; reflexivity|].
    rewrite bind_Ok, IH, app_length, cells_length, Nat.add_assoc. reflexivity. }
  rewrite E. cbn [lift fst snd]. rewrite H4.
  rewrite foldM_flat. set (N := flat_map (fun p => centres (pgrid p)) ps).
  assert (EN : N = map cell_centre (all_cells ps)).
  { unfold N, all_cells. clear. induction ps as [|p ps IH]; cbn [flat_map map]; [reflexivity|].
    rewrite map_app, IH, centres_cells. reflexivity. }
  pose proof (put_all f N [] (repeat 0%Qc (length (all_cells ps)))) as P. cbn [app length] in P.
  change (0 + length (all_cells ps)) with (length (all_cells ps)).
  rewrite P by (rewrite repeat_length, EN, map_length; reflexivity).
  cbn [lift fst snd]. rewrite EN, map_map. reflexivity.
Qed.

Lemma gather_solution (m : nmap patch) ps : node_map rank F m -> leaf_patches rank F m ps ->
  exists m', (forall p, m' p = m p) /\
  forall k : _ -> cmd patch R, gatherSolution rank F m k = k (flat_map pu ps, m').
Proof.
  intros NM LP.
  destruct (walk_patches (fun (s : list Qc) n => if n_leaf n then r <- Ok (vappend s (pu (n_data n)), n_data n) ;; Ok (fst r, snd r, true) else Ok (s, n_data n, true))
     (fun s p => Ok (s ++ pu p)) m ps NM LP) as (m1 & H1 & H2).
  { intros s n. destruct (n_leaf n); reflexivity. }
  exists m1. split; [exact H1|]. intros k. unfold gatherSolution, iteratePatches. rewrite H2.
  assert (E : forall s, foldM (fun s p => Ok (s ++ pu p)) ps s = Ok (s ++ flat_map pu ps)).
  { clear. induction ps as [|p ps IH]; intros s; cbn [foldM flat_map]; [rewrite app_nil_r; reflexivity|].
    rewrite bind_Ok, IH, app_assoc. reflexivity. }
  rewrite E. reflexivity.
Qed.
End run.
