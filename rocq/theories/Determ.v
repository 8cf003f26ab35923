(** * Determinism of sequences of kernels *)
From Coq Require Import ZArith List Bool Lia ZifyBool.
Import ListNotations.
From Verif Require Import Num Exec ExecFacts Grid GridFacts Boundaries BoundariesSpec
  BoundariesFacts BoundariesFill BoundariesNarrow HydroNum Kernels KernelFacts.
Local Open Scope Z_scope.

Section Det.
Context {T : Type}.
Implicit Types s : store T.

(** Whatever the schedules, equal initial stores give equal final stores. *)
Definition deterministic (inb : extents) (Ks : list (list (prog T))) : Prop :=
  forall s1 s2 s1' s2', (forall l, s1 l = s2 l) ->
    execs inb s1 Ks s1' -> execs inb s2 Ks s2' -> forall l, s1' l = s2' l.

Lemma det_app inb Ks1 Ks2 :
  deterministic inb Ks1 -> deterministic inb Ks2 -> deterministic inb (Ks1 ++ Ks2).
Proof.
  intros H1 H2 s1 s2 s1' s2' He E1 E2.
  apply execs_app in E1. apply execs_app in E2.
  destruct E1 as (t1 & A1 & B1), E2 as (t2 & A2 & B2).
  eapply H2; [|exact B1|exact B2]. eapply H1; eauto.
Qed.

Lemma det_nil inb : deterministic inb [].
Proof. intros s1 s2 s1' s2' He E1 E2. inversion E1; inversion E2; subst; auto. Qed.

Lemma det_cellwise {I} (cell : I -> Z * Z * Z) (body : I -> prog T) idx Wa inb :
  NoDup idx -> (forall a b, In a idx -> In b idx -> cell a = cell b -> a = b) ->
  (forall i, In i idx -> own_foot Wa (cell i) (body i)) ->
  deterministic inb [map body idx].
Proof.
  intros Hn Hi Ho s1 s2 s1' s2' He E1 E2.
  inversion E1 as [|? ? t1 ? ? K1 R1]; subst. inversion R1; subst. clear E1 R1.
  inversion E2 as [|? ? t2 ? ? K2 R2]; subst. inversion R2; subst. clear E2 R2.
  destruct (cellwise_spec cell body idx Wa inb Hn Hi Ho _ _ K1) as [A1 B1].
  destruct (cellwise_spec cell body idx Wa inb Hn Hi Ho _ _ K2) as [A2 B2].
  intros l.
  destruct (in_dec cell_eq_dec (cell_of l) (map cell idx)) as [Hin|Hout].
  - apply in_map_iff in Hin. destruct Hin as (i & E & Hin).
    rewrite (A1 i), (A2 i) by auto. apply run_ext; auto.
  - rewrite B1, B2; auto; intros i Hin E; apply Hout; apply in_map_iff; eauto.
Qed.

Lemma det_cell2 (body : Z * Z -> prog T) n1 n2 Wa inb :
  (forall c, own_foot Wa (cell2of c) (body c)) -> deterministic inb [map body (range2 n1 n2)].
Proof.
  intros Ho. apply det_cellwise with (cell := cell2of) (Wa := Wa); auto.
  - apply nodup_range2.
  - intros [a b] [c d] _ _ E. inversion E; auto.
Qed.

Lemma det_cell3 (body : Z * Z * Z -> prog T) n1 n2 n3 Wa inb :
  (forall c, own_foot Wa c (body c)) -> deterministic inb [map body (range3 n1 n2 n3)].
Proof.
  intros Ho. apply det_cellwise with (cell := fun c => c) (Wa := Wa); auto.
  apply nodup_range3.
Qed.

Lemma det_cons inb K Ks : deterministic inb [K] -> deterministic inb Ks -> deterministic inb (K :: Ks).
Proof. intros H1 H2. apply (det_app inb [K] Ks H1 H2). Qed.

End Det.

Section DetFill.
Context {T : Type} {N : Num T} {O : NumOne T}.

Lemma det_fill2d m a inb : wide2 m -> deterministic (T := T) inb (make_boundaries2d m a).
Proof.
  intros (Hg & Hv & H1 & H2 & H3 & H4) s1 s2 s1' s2' He E1 E2 l.
  destruct (fill2d m a inb Hg Hv H1 H2 H3 H4 _ _ E1) as [A1 B1].
  destruct (fill2d m a inb Hg Hv H1 H2 H3 H4 _ _ E2) as [A2 B2].
  destruct l as [b i j k v].
  destruct (arr_eq_dec b a) as [->|];
    [|rewrite B1, B2; auto; simpl; tauto].
  destruct (Z.eq_dec k 0) as [->|]; [|rewrite B1, B2; auto; simpl; tauto].
  destruct ((0 <=? i) && (i <? isize m) && (0 <=? j) && (j <? jsize m) && (0 <=? v) && (v <? nbvar m)) eqn:E.
  - rewrite A1, A2 by lia. rewrite He. reflexivity.
  - rewrite B1, B2; auto; simpl; lia.
Qed.

Lemma det_fill3d m a inb : wide3 m -> deterministic (T := T) inb (make_boundaries3d m a).
Proof.
  intros ((Hg & Hv & H1 & H2 & H3 & H4) & H5 & H6) s1 s2 s1' s2' He E1 E2 l.
  destruct (fill3d m a inb Hg Hv H1 H2 H3 H4 H5 H6 _ _ E1) as [A1 B1].
  destruct (fill3d m a inb Hg Hv H1 H2 H3 H4 H5 H6 _ _ E2) as [A2 B2].
  destruct l as [b i j k v].
  destruct (arr_eq_dec b a) as [->|];
    [|rewrite B1, B2; auto; simpl; tauto].
  destruct ((0 <=? i) && (i <? isize m) && (0 <=? j) && (j <? jsize m) && (0 <=? k) && (k <? ksize m)
            && (0 <=? v) && (v <? nbvar m)) eqn:E.
  - rewrite A1, A2 by lia. rewrite He. reflexivity.
  - rewrite B1, B2; auto; simpl; lia.
Qed.
End DetFill.
