(** C08: Matrix insertion and removal are exact inverses. *)
From Coq Require Import Reals List Arith Bool Lia Lra Sorted.
From Verif Require Import Base.Res Base.Mat Base.LinAlg Base.Geom Base.AMap
  Model.TypeHelper Model.Types Model.MathHelperMat Model.Ekf Model.Updater Model.Ops
  Spec.Layout Spec.History Spec.Contract Spec.Correct Spec.Named Spec.Same Spec.KF Spec.Motion Spec.Surgery
  Proofs.MatSurgery Proofs.Invariant Proofs.Demo Proofs.DemoFilter Proofs.Named Proofs.Same Proofs.Update
  Proofs.Sizes Proofs.RegRefute Proofs.Clock Proofs.Effects Proofs.Windows Proofs.Pruning Proofs.CloneFacts Proofs.Finals.
Import ListNotations.
Open Scope nat_scope.

Theorem C08_insert : forall T (z : T) (sub m : mat T) row col, row <= nr m -> col <= nc m ->
  exists out, InsertInMatrix z sub m row col = OK out /\
    nr out = nr m + nr sub /\ nc out = nc m + nc sub /\
    forall i j, i < nr out -> j < nc out -> ent out i j = insert_entry z sub m row col i j.
Proof. exact Insert_spec. Qed.
Print Assumptions C08_insert.

Theorem C08_insert_out_of_range : forall T (z : T) (sub m : mat T) row col,
  nr m < row \/ nc m < col -> InsertInMatrix z sub m row col = UB.
Proof. exact Insert_ub. Qed.
Print Assumptions C08_insert_out_of_range.

Theorem C08_remove : forall T (z : T) (m : mat T) row col size, row + size <= nr m -> col + size <= nc m ->
  exists out, RemoveFromMatrix z m row col size = OK out /\
    nr out = nr m - size /\ nc out = nc m - size /\
    forall i j, i < nr out -> j < nc out -> ent out i j = ent m (skip row size i) (skip col size j).
Proof. exact Remove_spec. Qed.
Print Assumptions C08_remove.

Theorem C08_remove_out_of_range : forall T (z : T) (m : mat T) row col size,
  nr m < row + size \/ nc m < col + size -> RemoveFromMatrix z m row col size = UB.
Proof. exact Remove_ub. Qed.
Print Assumptions C08_remove_out_of_range.

Theorem C08_remove_insert : forall T (z : T) (sub m : mat T) pos, nr sub = nc sub -> pos <= nr m -> pos <= nc m ->
  exists out back, InsertInMatrix z sub m pos pos = OK out /\
    RemoveFromMatrix z out pos pos (nr sub) = OK back /\ meq back m.
Proof. exact Remove_Insert. Qed.
Print Assumptions C08_remove_insert.

Theorem C08_insert_read_back : forall T (z : T) (sub m : mat T) row col, row <= nr m -> col <= nc m ->
  exists out b, InsertInMatrix z sub m row col = OK out /\ block out row col (nr sub) (nc sub) = OK b /\ meq b sub.
Proof. exact Insert_read_back. Qed.
Print Assumptions C08_insert_read_back.

Theorem C08_remove_remove : forall T (z : T) (m : mat T) p q s t, p + s <= q -> q + t <= nr m -> nr m = nc m ->
  exists a b c d, RemoveFromMatrix z m q q t = OK a /\ RemoveFromMatrix z a p p s = OK b /\
    RemoveFromMatrix z m p p s = OK c /\ RemoveFromMatrix z c (q - s) (q - s) t = OK d /\ meq b d.
Proof. exact Remove_Remove_comm. Qed.
Print Assumptions C08_remove_remove.

Theorem C08_insert_insert : forall T (z : T) (m s t : mat T) p q,
  nr m = nc m -> nr s = nc s -> nr t = nc t -> p <= q -> q <= nr m ->
  exists a b c d, InsertInMatrix z t m q q = OK a /\ InsertInMatrix z s a p p = OK b /\
    InsertInMatrix z s m p p = OK c /\ InsertInMatrix z t c (q + nr s) (q + nr s) = OK d /\ meq b d.
Proof. exact Insert_Insert_comm. Qed.
Print Assumptions C08_insert_insert.

(** Evaluated on 4x4 and 2x2 matrices of naturals. *)
Example C08_computed :
  let m := mkmat 4 4 (fun i j => 10 * i + j) in let s := mkmat 2 2 (fun i j => 100 + 10 * i + j) in
  match InsertInMatrix 0 s m 1 1 with
  | OK o => map (fun i => map (ent o i) (seq 0 6)) (seq 0 6) =
      [[0; 0; 0; 1; 2; 3]; [0; 100; 101; 0; 0; 0]; [0; 110; 111; 0; 0; 0];
       [10; 0; 0; 11; 12; 13]; [20; 0; 0; 21; 22; 23]; [30; 0; 0; 31; 32; 33]]
  | UB => False end /\
  match RemoveFromMatrix 0 m 1 1 2 with
  | OK o => map (fun i => map (ent o i) (seq 0 2)) (seq 0 2) = [[0; 3]; [30; 33]] | UB => False end.
Proof. vm_compute. auto. Qed.
