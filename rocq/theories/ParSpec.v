(** Specification of parallel runs. *)
From Verif Require Import Base VectorModel MatrixModel HPSModel TreeModel TreeSpec ParModel.

(** Whatever order the collectives complete in, the machine cannot get stuck and
    cannot run for ever: every partial run can be completed to the end, in
    which every rank [r] has finished with [fin r]; all complete runs have the
    same length. *)
Definition always_ends {D A} (s : @config D A) (fin : nat -> res A) : Prop :=
  exists n, forall k s1, runs k s s1 ->
  k <= n /\ exists s2, runs (n - k) s1 s2 /\ forall r, s2 r = Fin (fin r).

(** A deadlock: some rank has not finished, no collective can complete. *)
Definition deadlock {D A} (s : @config D A) : Prop :=
  (exists r, forall x, s r <> Fin x) /\ forall s', ~ pstep s s'.

(** No rank between ranks with leaves is without leaves. *)
Definition gapless (f : forest) : Prop :=
  forall o1 o2 r, In o1 (owners f) -> In o2 (owners f) -> o1 <= r <= o2 -> In r (owners f).

(** Where a rank holds a quadrant of the tree, its data are those of the serial map. *)
Definition same_data {D} (f : forest) (m m0 : nmap D) : Prop :=
  forall ds n, sub f ds <> None -> m (0 :: ds) = Some n ->
  exists n0, m0 (0 :: ds) = Some n0 /\ n_data n = n_data n0.

(** Callbacks whose effect on data, failure and (for families) returned value are a
    function of data and path: not of the rank, not of what the callback captured. *)
Definition leaf_fun {D S} (fn : S -> qnode D -> res (S * D * bool)) (g : path -> D -> res D) : Prop :=
  forall s n, match g (n_path n) (n_data n) with
              | Ok d => exists s' c, fn s n = Ok (s', d, c)
              | Throw x => fn s n = Throw x
              | UB => fn s n = UB
              end.
Definition family_fun {D S} (fam : S -> qnode D -> four (qnode D) -> res (S * D * four D * bool))
  (g : path -> D -> four D -> res (D * four D * bool)) : Prop :=
  forall s n ch, match g (n_path n) (n_data n) (fmap n_data ch) with
                 | Ok x => exists s', fam s n ch = Ok (s', fst (fst x), snd (fst x), snd x)
                 | Throw x => fam s n ch = Throw x
                 | UB => fam s n ch = UB
                 end.
Definition root_fun {D S} (h : S -> D -> res (S * D)) (g : D -> res D) : Prop :=
  forall s d, match g d with
              | Ok d' => exists s', h s d = Ok (s', d')
              | Throw x => h s d = Throw x
              | UB => h s d = UB
              end.
Definition rank_independent {D S} (g : stage D S) : Prop :=
  match g with
  | Merge fn fam | Split fn fam => (exists g, leaf_fun fn g) /\ (exists g, family_fun fam g)
  | AtRoot h => exists g, root_fun h g
  end.

(** The same tree with all leaves on rank 0. *)
Fixpoint serial (f : forest) : forest :=
  match f with
  | FLeaf _ => FLeaf 0
  | FNode a b c d => FNode (serial a) (serial b) (serial c) (serial d)
  end.

(** The data of a new child are a function of the parent's path and data and of
    the sibling number. *)
Definition factory_data {D} (fac : factory D) : Prop :=
  forall par par' i a b a' b', n_path par = n_path par' -> n_data par = n_data par' ->
  n_data (f_child fac par i a b) = n_data (f_child fac par' i a' b').
