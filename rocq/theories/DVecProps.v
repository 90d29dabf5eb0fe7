(** Properties of distributed vectors and matrices. *)
From Verif Require Import Base VectorModel MatrixModel PMatModel PMatSpec PMatProps DVecModel DVecSpec DVecProofs.

(** [C81] Every row belongs to exactly one rank. *)
Lemma rows_divided_pf : forall (n p : nat), 0 < p -> one_owner n p (row_start n p) (row_count n p).
Proof. exact rows_one_owner. Qed.

(** [C81] If the ranks write every entry of a vector, on whatever rank and as often as they like, and do not
    contradict each other, then after assembly the vector has the values written, whatever the order in
    which the messages arrive; negative indices are skipped. *)
Lemma vector_after_assembly_pf : forall (n p : nat) (f : nat -> Qc) (idx : nat -> list Z) (vals : nat -> list Qc) (order : nat -> list nat),
  0 < p ->
  (forall r, r < p -> length (idx r) <= length (vals r)) ->
  (forall r i, r < p -> In i (idx r) -> (i < Z.of_nat n)%Z) ->
  (forall r k v, r < p -> In (Z.of_nat k, v) (combine (idx r) (vals r)) -> v = f k) ->
  (forall k, k < n -> exists r, r < p /\ In (Z.of_nat k) (idx r)) ->
  (forall r s, r < p -> (In s (order r) <-> s < p)) ->
  exists ranks, mapM (fun r => vec_set_values n p r (fresh_rank n p 1 r) (idx r) (vals r)) (seq 0 p) = Ok ranks /\
    global (assemble n p 1 order ranks) = map f (seq 0 n).
Proof.
  intros n p f idx vals order Hp Hlen Hidx Hval Hall Hord.
  set (ws := fun r => vec_entries (idx r) (vals r)).
  exists (written n p 1 ws). split.
  - rewrite <- set_ranks.
    + apply mapM_ext_in. intros r Hr. apply in_seq in Hr. apply vec_set_values_entries. apply Hlen. lia.
    + intros r [k v] Hr Hi. cbn [fst]. apply in_vec_entries in Hi. apply in_combine_l in Hi. specialize (Hidx r _ Hr Hi). lia.
  - rewrite (entries_assembled n p 1 f ws order Hp).
    + rewrite Nat.mul_1_r. reflexivity.
    + intros r k v Hr Hi. apply (Hval r); [exact Hr|]. apply in_vec_entries. exact Hi.
    + intros k Hk. destruct (Hall k) as (r & Hr & Hi); [lia|].
      destruct (in_combine_some _ _ _ Hi (Hlen r Hr)) as (v & Hv). exists r, v. split; [exact Hr|]. apply in_vec_entries. exact Hv.
    + exact Hord.
Qed.

(** [C81] The same for the blocks of values written into a matrix of [n] rows and [w] columns. *)
Lemma matrix_after_assembly_pf : forall (n p w : nat) (f : nat -> nat -> Qc) (rows cols : nat -> list Z) (vals : nat -> list Qc) (order : nat -> list nat),
  0 < p ->
  (forall r, r < p -> length (rows r) * length (cols r) <= length (vals r)) ->
  (forall r i, r < p -> In i (rows r) -> (0 <= i < Z.of_nat n)%Z) ->
  (forall r j, r < p -> In j (cols r) -> (0 <= j < Z.of_nat w)%Z) ->
  (forall r i j a b, r < p -> nth_error (rows r) a = Some (Z.of_nat i) -> nth_error (cols r) b = Some (Z.of_nat j) ->
     nth (a * length (cols r) + b) (vals r) 0%Qc = f i j) ->
  (forall i j, i < n -> j < w -> exists r, r < p /\ In (Z.of_nat i) (rows r) /\ In (Z.of_nat j) (cols r)) ->
  (forall r s, r < p -> (In s (order r) <-> s < p)) ->
  exists ranks, mapM (fun r => mat_set_values n p w r (fresh_rank n p w r) (rows r) (cols r) (vals r)) (seq 0 p) = Ok ranks /\
    length (global (assemble n p w order ranks)) = n * w /\
    forall i j, i < n -> j < w -> nth (i * w + j) (global (assemble n p w order ranks)) 0%Qc = f i j.
Proof.
  intros n p w f rows cols vals order Hp Hlen Hr Hc Hval Hall Hord.
  set (ws := fun r => mat_entries w (rows r) (cols r) (vals r)).
  set (F := fun k => f (k / w) (k mod w)).
  assert (HF : forall i j, j < w -> F (i * w + j) = f i j).
  { intros i j Hj. unfold F. rewrite Nat.add_comm, Nat.div_add, Nat.mod_add by lia.
    rewrite Nat.div_small, Nat.mod_small by lia. reflexivity. }
  assert (E : global (assemble n p w order (written n p w ws)) = map F (seq 0 (n * w))).
  { apply entries_assembled; [exact Hp| | |exact Hord].
    - intros r k v Hrp Hi. apply in_mat_entries in Hi as (a & b & Ha & Hb & -> & ->).
      pose proof (Hr r (nth a (rows r) 0%Z) Hrp ltac:(apply nth_In; exact Ha)) as H1.
      pose proof (Hc r (nth b (cols r) 0%Z) Hrp ltac:(apply nth_In; exact Hb)) as H2.
      rewrite HF by lia. apply (Hval r); [exact Hrp| |]; rewrite Z2Nat.id by lia; apply nth_error_nth'; assumption.
    - intros k Hk. assert (Hw : 0 < w) by nia.
      destruct (Hall (k / w) (k mod w)) as (r & Hrp & H1 & H2); [apply Nat.div_lt_upper_bound; nia|apply Nat.mod_upper_bound; lia|].
      apply (In_nth _ _ 0%Z) in H1 as (a & Ha & Ea). apply (In_nth _ _ 0%Z) in H2 as (b & Hb & Eb).
      exists r, (nth (a * length (cols r) + b) (vals r) 0%Qc). split; [exact Hrp|]. apply in_mat_entries.
      exists a, b. repeat split; try assumption. rewrite Ea, Eb, !Nat2Z.id. rewrite (Nat.div_mod k w) at 1 by lia. lia. }
  exists (written n p w ws). split.
  - rewrite <- set_ranks.
    + apply mapM_ext_in. intros r Hrp. apply in_seq in Hrp. apply mat_set_values_entries; [apply Hlen; lia| |].
      * intros i Hi. apply (Hr r); [lia|exact Hi].
      * intros j Hj. apply (Hc r); [lia|exact Hj].
    + intros r [k v] Hrp Hi. cbn [fst]. apply in_mat_entries in Hi as (a & b & Ha & Hb & -> & _).
      pose proof (Hr r (nth a (rows r) 0%Z) Hrp ltac:(apply nth_In; exact Ha)) as H1.
      pose proof (Hc r (nth b (cols r) 0%Z) Hrp ltac:(apply nth_In; exact Hb)) as H2. nia.
  - rewrite E. split; [rewrite map_length, seq_length; reflexivity|]. intros i j Hi Hj.
    rewrite nth_map_seq_gen by nia. apply HF. exact Hj.
Qed.

(** [C81] A serial vector that is the same on every rank: the entries are right on every rank at once,
    and stay so when the vector is assembled, in every order of messages. *)
Lemma serial_vector_distributed_pf : forall (p : nat) (v : list Qc), 0 < p ->
  exists ranks, from_serial_vector (repeat v p) = Ok ranks /\ global ranks = v /\
    forall order, (forall r s, r < p -> In s (order r) -> s < p) -> global (assemble (length v) p 1 order ranks) = v.
Proof.
  intros p v Hp. set (n := length v). set (ws := fun _ : nat => vec_entries (map Z.of_nat (seq 0 n)) v).
  assert (Hin : forall k x, In (k, x) (vec_entries (map Z.of_nat (seq 0 n)) v) -> k < n /\ x = nth k v 0%Qc).
  { intros k x Hi. apply in_vec_entries in Hi. apply (In_nth _ _ (0%Z, 0%Qc)) in Hi as (j & Hj & E).
    rewrite combine_length, map_length, seq_length in Hj.
    rewrite combine_nth in E by (rewrite map_length, seq_length; reflexivity). rewrite nth_range in E by lia.
    injection E as E <-. split; [lia|]. f_equal. lia. }
  destruct (entries_everywhere n p 1 (fun k => nth k v 0%Qc) ws (fun _ => []) Hp) as (A & _).
  { intros r k x _ Hi. apply Hin, Hi. }
  { intros r k _ Hk. destruct (in_combine_some (map Z.of_nat (seq 0 n)) v (Z.of_nat k)) as (x & Hx).
    - apply in_map. apply in_seq. lia.
    - rewrite map_length, seq_length. apply Nat.le_refl.
    - exists x. apply in_vec_entries. exact Hx. }
  { intros r s _ []. }
  exists (written n p 1 ws). split; [|split].
  - unfold from_serial_vector. rewrite repeat_length. rewrite <- set_ranks.
    + apply mapM_ext_in. intros r Hr. apply in_seq in Hr. cbn zeta. rewrite nth_repeat_lt by lia.
      replace (forallb _ (repeat v p)) with true.
      * fold n. rewrite range_ok. cbn [bind]. apply vec_set_values_entries. rewrite map_length, seq_length. apply Nat.le_refl.
      * symmetry. apply forallb_forall. intros x Hx. apply repeat_spec in Hx. subst x. apply Nat.eqb_refl.
    + intros r [k x] _ Hi. cbn [fst]. apply Hin in Hi. lia.
  - rewrite A, Nat.mul_1_r. apply list_of_nth.
  - intros order Ho. destruct (entries_everywhere n p 1 (fun k => nth k v 0%Qc) ws order Hp) as (_ & B); try assumption.
    + intros r k x _ Hi. apply Hin, Hi.
    + intros r k _ Hk. destruct (in_combine_some (map Z.of_nat (seq 0 n)) v (Z.of_nat k)) as (x & Hx).
      * apply in_map. apply in_seq. lia.
      * rewrite map_length, seq_length. apply Nat.le_refl.
      * exists x. apply in_vec_entries. exact Hx.
    + rewrite B, Nat.mul_1_r. apply list_of_nth.
Qed.

(** [C81] A serial matrix that is the same on every rank. *)
Lemma serial_matrix_distributed_pf : forall (p : nat) (m : matrix Qc), 0 < p -> length (dat m) = nr m * nc m ->
  exists ranks, from_serial_matrix (repeat m p) = Ok ranks /\ global ranks = dat m /\
    forall order, (forall r s, r < p -> In s (order r) -> s < p) -> global (assemble (nr m) p (nc m) order ranks) = dat m.
Proof.
  intros p [n w v] Hp Hl. cbn [nr nc dat] in *.
  set (rows := map Z.of_nat (seq 0 n)). set (cols := map Z.of_nat (seq 0 w)).
  assert (Lr : length rows = n) by (unfold rows; rewrite map_length, seq_length; reflexivity).
  assert (Lc : length cols = w) by (unfold cols; rewrite map_length, seq_length; reflexivity).
  set (ws := fun _ : nat => mat_entries w rows cols v).
  assert (Hin : forall k x, In (k, x) (mat_entries w rows cols v) -> k < n * w /\ x = nth k v 0%Qc).
  { intros k x Hi. apply in_mat_entries in Hi as (i & j & Hi & Hj & -> & ->). rewrite Lr in Hi. rewrite Lc in Hj.
    unfold rows, cols. rewrite !nth_range by assumption. rewrite !Nat2Z.id. fold cols. rewrite Lc. split; [nia|reflexivity]. }
  assert (Hall : forall k, k < n * w -> exists x, In (k, x) (mat_entries w rows cols v)).
  { intros k Hk. assert (Hw : 0 < w) by nia. assert (Hi : k / w < n) by (apply Nat.div_lt_upper_bound; nia).
    assert (Hj : k mod w < w) by (apply Nat.mod_upper_bound; lia).
    eexists. apply in_mat_entries. exists (k / w), (k mod w). rewrite Lr, Lc. split; [exact Hi|]. split; [exact Hj|]. split; [|reflexivity].
    unfold rows, cols. rewrite !nth_range by assumption. rewrite !Nat2Z.id. rewrite (Nat.div_mod k w) at 1 by lia. lia. }
  assert (Hg : map (fun k => nth k v 0%Qc) (seq 0 (n * w)) = v) by (rewrite <- Hl; apply list_of_nth).
  destruct (entries_everywhere n p w (fun k => nth k v 0%Qc) ws (fun _ => []) Hp) as (A & _).
  { intros r k x _ Hi. apply Hin, Hi. }
  { intros r k _ Hk. apply Hall, Hk. }
  { intros r s _ []. }
  exists (written n p w ws). split; [|split].
  - unfold from_serial_matrix. rewrite repeat_length. rewrite <- set_ranks.
    + apply mapM_ext_in. intros r Hr. apply in_seq in Hr. cbn zeta. rewrite nth_repeat_lt by lia. cbn [nr nc dat].
      replace (forallb _ (repeat _ p)) with true.
      * rewrite !range_ok. cbn [bind]. apply mat_set_values_entries.
        -- fold rows cols. rewrite Lr, Lc. lia.
        -- intros i Hi. apply in_map_iff in Hi as (a & <- & Ha). apply in_seq in Ha. lia.
        -- intros i Hi. apply in_map_iff in Hi as (a & <- & Ha). apply in_seq in Ha. lia.
      * symmetry. apply forallb_forall. intros x Hx. apply repeat_spec in Hx. subst x. cbn. rewrite !Nat.eqb_refl. reflexivity.
    + intros r [k x] _ Hi. cbn [fst]. apply Hin in Hi. lia.
  - rewrite A. exact Hg.
  - intros order Ho. destruct (entries_everywhere n p w (fun k => nth k v 0%Qc) ws order Hp) as (_ & B); try assumption.
    + intros r k x _ Hi. apply Hin, Hi.
    + intros r k _ Hk. apply Hall, Hk.
    + rewrite B. exact Hg.
Qed.

(** [C81] Serial vectors that differ: the owner's values at first, after assembly those of the rank whose
    message comes last. *)
Lemma different_serials_refuted_pf : exists (serials : list (list Qc)) (ranks : list vrank) (order order' : nat -> list nat),
  from_serial_vector serials = Ok ranks /\
  (forall r s, r < 3 -> (In s (order r) <-> s < 3)) /\ (forall r s, r < 3 -> (In s (order' r) <-> s < 3)) /\
  global (assemble 3 3 1 order ranks) <> global (assemble 3 3 1 order' ranks) /\
  global (assemble 3 3 1 order ranks) <> global ranks.
Proof.
  exists [[1; 1; 1]; [q2; q2; q2]; [0; 0; 0]]%Qc. eexists. exists (fun _ => [0; 1; 2]), (fun _ => [2; 1; 0]).
  split; [vm_compute; reflexivity|]. split; [|split; [|split]].
  - intros r s _. cbn. lia.
  - intros r s _. cbn. lia.
  - vm_compute. discriminate.
  - vm_compute. discriminate.
Qed.

(** [C81] setValues reads as many values as there are indices, or rows times columns; fewer are not noticed. *)
Lemma short_values_undefined_pf : forall (n p w r : nat) (x : vrank) (idx rows cols : list Z) (vals : list Qc),
  (length vals < length idx -> vec_set_values n p r x idx vals = UB) /\
  (length vals < length rows * length cols -> mat_set_values n p w r x rows cols vals = UB).
Proof.
  intros n p w r x idx rows cols vals. unfold vec_set_values, mat_set_values. split; intros H.
  - destruct (Nat.ltb_spec (length vals) (length idx)); [reflexivity|lia].
  - destruct (Nat.ltb_spec (length vals) (length rows * length cols)); [reflexivity|lia].
Qed.

(** [C81] Programs that neither copy a vector nor write over one: when all objects are gone every vector was
    destroyed exactly once.  Missing: the other programs, for which it is false. *)
Lemma vectors_destroyed_once_partial_pf : forall (cs : list vcall) (st : vstate),
  single_owner_run v_start cs -> v_run cs = Ok st -> all_gone st -> each_vector_once st.
Proof.
  intros cs st C E N. destruct (single_run cs v_start st sound_v_start C E) as (_ & _ & _ & S4 & _).
  intros m Hm. destruct (S4 m Hm) as [(o & x & Ho & _)|H]; [|exact H]. cbn in Ho. rewrite N in Ho. discriminate.
Qed.

(** [C81] A copy of a vector and its original destroy it twice; an assignment loses the vector on the left
    and destroys the other one twice; a second create loses the first vector. *)
Lemma vectors_destroyed_once_refuted_pf :
  (exists st, v_run [VMake 0; VCopy 1 0; VDestroy 1; VDestroy 0] = Ok st /\ all_gone st /\ count_occ Nat.eq_dec (v_destroyed st) 0 = 2) /\
  (exists st, v_run [VMake 0; VMake 1; VAssign 0 1; VDestroy 1; VDestroy 0] = Ok st /\ all_gone st /\
     count_occ Nat.eq_dec (v_destroyed st) 0 = 0 /\ count_occ Nat.eq_dec (v_destroyed st) 1 = 2) /\
  (exists st, v_run [VMake 0; VCreate 0; VDestroy 0] = Ok st /\ all_gone st /\ count_occ Nat.eq_dec (v_destroyed st) 0 = 0).
Proof.
  split; [|split]; (eexists; split; [reflexivity|]); cbn.
  - split; [|reflexivity]. intros o. cbn. destruct o as [|[|o]]; reflexivity.
  - split; [|auto]. intros o. cbn. destruct o as [|[|o]]; reflexivity.
  - split; [|reflexivity]. intros o. cbn. destruct o as [|o]; reflexivity.
Qed.

(** [C81] The vectors inside of a patch are never made (FiniteVolumePatch.hpp:103-133), so patches may be
    copied and assigned: no vector is ever made or destroyed. *)
Lemma patch_vectors_harmless_pf : forall (cs : list vcall) (st : vstate),
  Forall patch_use cs -> v_run cs = Ok st -> v_next st = 0 /\ v_destroyed st = [] /\ forall o, ~ has_vector st o.
Proof.
  intros cs st H E.
  assert (G : forall cs st0, Forall patch_use cs -> (v_next st0 = 0 /\ v_destroyed st0 = [] /\ forall o, ~ has_vector st0 o) ->
    foldM v_step cs st0 = Ok st -> v_next st = 0 /\ v_destroyed st = [] /\ forall o, ~ has_vector st o).
  { clear. induction cs as [|c cs IH]; intros st0 H I E; cbn [foldM] in E; [apply Ok_inj in E; subst; exact I|].
    inversion H as [|? ? Hc Hcs]; subst. apply bind_inv in E as (st1 & E1 & E). apply (IH st1); [exact Hcs| |exact E].
    destruct I as (I1 & I2 & I3). clear IH E H Hcs.
    assert (P : forall o y, v_created y = false -> v_next (v_put st0 o (Some y)) = 0 /\ v_destroyed (v_put st0 o (Some y)) = [] /\
      forall o', ~ has_vector (v_put st0 o (Some y)) o').
    { intros o y Hy. split; [exact I1|]. split; [exact I2|]. intros o' (x & Ex & C). cbn in Ex. destruct (o =? o'); [injection Ex as <-; congruence|].
      apply (I3 o'). exists x. auto. }
    assert (Q : forall s y, v_obj st0 s = Ok y -> v_created y = false).
    { intros s y Ey. unfold v_obj in Ey. destruct (v_objs st0 s) as [x|] eqn:X; [|discriminate]. apply Ok_inj in Ey. subst x.
      destruct (v_created y) eqn:C; [|reflexivity]. exfalso. apply (I3 s). exists y. auto. }
    destruct c as [o|o|o s|o s|o|o]; cbn [v_step patch_use] in *; try contradiction.
    - unfold v_new in E1. destruct (v_objs st0 o); [discriminate|]. apply Ok_inj in E1. subst st1. apply P. reflexivity.
    - apply bind_inv in E1 as (x & Ex & E1). unfold v_new in E1. destruct (v_objs st0 o); [discriminate|]. apply Ok_inj in E1. subst st1.
      apply P. exact (Q _ _ Ex).
    - apply bind_inv in E1 as (x & Ex & E1). apply bind_inv in E1 as (y & _ & E1). apply Ok_inj in E1. subst st1. apply P. exact (Q _ _ Ex).
    - apply bind_inv in E1 as (x & Ex & E1). rewrite (Q _ _ Ex) in E1. apply Ok_inj in E1. subst st1.
      split; [exact I1|]. split; [exact I2|]. intros o' (z & Ez & C). cbn in Ez. destruct (o =? o'); [discriminate|]. apply (I3 o'). exists z. auto. }
  apply (G cs v_start H); [|exact E]. split; [reflexivity|]. split; [reflexivity|]. intros o (x & Ex & _). discriminate.
Qed.

(** [C81] Five entries on two ranks; a program that owns two vectors. *)
Lemma distributed_example_expf :
  (exists ranks, from_serial_vector (repeat [1; 0; 1; 0; 1]%Qc 2) = Ok ranks /\ map (fun r => length (v_own r)) ranks = [3; 2] /\
     map (fun r => length (v_stash r)) ranks = [2; 3]) /\
  single_owner_run v_start [VMake 0; VDefault 1; VCreate 1; VDefault 2; VCopy 3 2; VDestroy 0; VDestroy 1] /\
  is_ok (v_run [VMake 0; VDefault 1; VCreate 1; VDefault 2; VCopy 3 2; VDestroy 0; VDestroy 1]).
Proof.
  split; [eexists; split; [vm_compute; reflexivity|split; reflexivity]|]. split; [|eexists; reflexivity].
  cbn [single_owner_run single_owner].
  repeat match goal with
  | |- _ /\ _ => split
  | |- True => exact I
  | |- forall st', v_step _ _ = Ok st' -> _ => let st := fresh in let E := fresh in intros st E; cbn in E; apply Ok_inj in E; subst st
  | |- ~ has_vector _ _ => let x := fresh in let E := fresh in let C := fresh in intros (x & E & C); cbn in E; injection E as <-; discriminate
  end.
Qed.
