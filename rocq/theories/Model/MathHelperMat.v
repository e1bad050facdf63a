(** Matrix surgery of /repo/src/utility/math_helper.cpp, transcribed block
    assignment by block assignment.  Generic in the scalar type; [z] is the
    zero used by [Eigen::MatrixXd::Zero]. *)
From Coq Require Import List Arith.
From Verif Require Import Base.Res Base.Mat.

(** math_helper.cpp 50-82, [InsertInMatrix].  Unsigned subtractions
    [in_cols - col] and [in_rows - row] are checked. *)
Definition InsertInMatrix {T} (z : T) (sub_mat in_mat : mat T) (row col : nat) : res (mat T) :=
  let in_rows := nr in_mat in
  let in_cols := nc in_mat in
  let sub_rows := nr sub_mat in
  let sub_cols := nc sub_mat in
  let out0 := mconst z (in_rows + sub_rows) (in_cols + sub_cols) in
  let* rgt := usub in_cols col in
  let* blw := usub in_rows row in
  (* Top Left *)
  let* b := block in_mat 0 0 row col in
  let* out1 := set_block out0 0 0 row col b in
  (* Top Right *)
  let* b := block in_mat 0 col row rgt in
  let* out2 := set_block out1 0 (col + sub_cols) row rgt b in
  (* Bottom Left *)
  let* b := block in_mat row 0 blw col in
  let* out3 := set_block out2 (row + sub_rows) 0 blw col b in
  (* Bottom Right *)
  let* b := block in_mat row col blw rgt in
  let* out4 := set_block out3 (row + sub_rows) (col + sub_cols) blw rgt b in
  (* Center *)
  set_block out4 row col sub_rows sub_cols sub_mat.

(** math_helper.cpp 84-107, [RemoveFromMatrix]. *)
Definition RemoveFromMatrix {T} (z : T) (in_mat : mat T) (row col size : nat) : res (mat T) :=
  let in_rows := nr in_mat in
  let in_cols := nc in_mat in
  let* out_rows := usub in_rows size in
  let* out_cols := usub in_cols size in
  let out0 := mconst z out_rows out_cols in
  let* b := block in_mat 0 0 row col in
  let* out1 := set_block out0 0 0 row col b in
  let* r0 := usub in_rows row in
  let* blw := usub r0 size in
  let* c0 := usub in_cols col in
  let* rgt := usub c0 size in
  let* b := block in_mat (row + size) (col + size) blw rgt in
  let* out2 := set_block out1 row col blw rgt b in
  let* b := block in_mat (row + size) 0 blw col in
  let* out3 := set_block out2 row 0 blw col b in
  let* b := block in_mat 0 (col + size) row rgt in
  set_block out3 0 col row rgt b.
