(** * Conformance: the library's own unit tests run on the model

    The tests of /repo/tests transcribed and evaluated on the model in IEEE binary32.  They check the translation from C++
    to the model; they are not property theorems.  Each example is named after its gtest case and cites it.

    The C++ tests were read, not run: what an example shows is that the model produces the values the test asserts.  In one
    case it does not, see [BatchNormalizationLayerTest_BackwardPass].

    Left out:
    - the Sigmoid, Softmax, Tanh, Swish and Mish tests, which need the C math library;
    - Conv2DLayerTest.WeightInitialization, which is about the random number generator;
    - AdvancedTensorOperationsTest.TestApplyDoesNotModifyOriginal, which compares a tensor with itself;
    - FullyConnectedLayerTest.BackwardPassHardcodedFullyConnected, BatchedDataProcessing and ForwardPassHardcoded, which
      repeat the data and the assertions of the fully connected tests below.

    Changed: where a layer is built with random weights every draw is 1/2, and three tests use other inputs, as noted there. *)
From Verif Require Import Base Scalar Types Spec M_Shape M_Tensor M_Adv M_Act M_Layers M_Reg M_Opt M_Heap.
From Coq Require Import Floats.SpecFloat.

(** No test below uses exp, log or tanh. *)
Definition no_libm : libm := {| m_exp := fun x => x; m_log := fun x => x; m_tanh := fun x => x; m_pow := pow64 |}.
#[local] Instance F32 : Scalar f32 | 0 := F32Scalar no_libm.
Notation tn := (tensor f32).

Definition I (l : list Z) : list f32 := map f32_of_Z l.
(** n/d as a float literal. *)
Definition q (n d : Z) : f32 := f32_div (f32_of_Z n) (f32_of_Z d).
(** Tensor<float> t(Shape(ds), {l...}) and Tensor<float> t(Shape(ds), v). *)
Definition T_ (ds : list Z) (l : list f32) : outcome tn := s <- new_shape ds ;; t_from_list s l.
Definition K_ (ds : list Z) (v : f32) : outcome tn := f_fill ds v.

(** tests/utils/tensor_helpers.hpp: shape and data within a tolerance. *)
Definition near (eps a b : f32) : bool := SFleb (SFabs (SFsub f32_prec f32_emax a b)) eps.
Fixpoint all_near (eps : f32) (a b : list f32) : bool :=
  match a, b with [], [] => true | x :: a', y :: b' => near eps x y && all_near eps a' b' | _, _ => false end.
Definition gives (eps : f32) (m : outcome tn) (ds : list Z) (l : list f32) : bool :=
  match m with Ok t => list_eqb (tdims t) ds && (ssize (tshape t) =? Zlen l) && all_near eps (tdata t) l | _ => false end.
Definition e6 := q 1 1000000.
Definition e5 := q 1 100000.
Definition eq6 := gives e6.
Definition eq5 := gives e5.
Definition shaped (m : outcome tn) (ds : list Z) : bool :=
  match m with Ok t => list_eqb (tdims t) ds && (ssize (tshape t) =? prod ds) && (Zlen (tdata t) =? prod ds) | _ => false end.
Definition finite (x : f32) : bool := match x with S754_zero _ | S754_finite _ _ _ => true | _ => false end.
Definition all_finite (m : outcome tn) : bool := match m with Ok t => forallb finite (tdata t) | _ => false end.
Definition throws {A} (m : outcome A) (e : exn) : bool :=
  match m, e with
  | Throw InvalidArgument, InvalidArgument | Throw RuntimeError, RuntimeError => true
  | _, _ => false end.

Ltac run := vm_compute; reflexivity.

(** ** tests/tensor/test_tensor.cpp *)
Definition six v := I [v; v; v; v; v; v].
Example TensorInitialisationTest_ExpectDefaultShapeInitialisation :          (* lines test_tensor.cpp:14-19 *)
  eq6 (s <- new_shape [1; 2; 3] ;; Ok (t_new s)) [1; 2; 3] (six 0) = true. Proof. run. Qed.
Example TensorInitialisationTest_ExpectValueFillInitialisation :             (* test_tensor.cpp:21-26 *)
  eq6 (K_ [1; 2; 3] (f32_of_Z 5)) [1; 2; 3] (six 5) = true. Proof. run. Qed.
Example TensorInitialisationTest_ExpectInvalidShapeInitialisation :          (* test_tensor.cpp:34-36 *)
  throws (new_shape [-1; -1; -1]) InvalidArgument = true. Proof. run. Qed.

Definition a5 := K_ [1; 2; 3] (f32_of_Z 5).
Definition both (op : tn -> tn -> outcome tn) (b : outcome tn) : outcome tn := x <- a5 ;; y <- b ;; op x y.
Example TensorOperatorTest_ExpectValidElementWiseAddition :                  (* test_tensor.cpp:44-51 *)
  eq6 (both t_add a5) [1; 2; 3] (six 10) = true. Proof. run. Qed.
Example TensorOperatorTest_ExpectValidElementWiseSubtraction :               (* test_tensor.cpp:53-61, broadcasts {2,3} *)
  eq6 (both t_sub (K_ [2; 3] (f32_of_Z 5))) [1; 2; 3] (six 0) = true. Proof. run. Qed.
Example TensorOperatorTest_ExpectValidElementWiseMultiplication :            (* test_tensor.cpp:63-71 *)
  eq6 (both t_mul a5) [1; 2; 3] (six 25) = true. Proof. run. Qed.
Example TensorOperatorTest_ExpectValidElementWiseDivision :                  (* test_tensor.cpp:73-81 *)
  eq6 (both t_div a5) [1; 2; 3] (six 1) = true. Proof. run. Qed.
Definition ip (op : f32 -> f32 -> f32) : tn -> tn -> outcome tn := fun a b =>
  match t_binop_ip op false a b with (r, Ok _) => Ok r | (_, _) => Abort end.
Example TensorOperatorTest_ExpectValidElementWiseAdditionAssignment :        (* test_tensor.cpp:83-91 *)
  eq6 (both (ip s_add) a5) [1; 2; 3] (six 10) = true. Proof. run. Qed.
Example TensorOperatorTest_ExpectValidElementWiseSubtractionAssignment :     (* test_tensor.cpp:93-101 *)
  eq6 (both (ip s_sub) a5) [1; 2; 3] (six 0) = true. Proof. run. Qed.
Example TensorOperatorTest_ExpectValidElementWiseMultiplicationAssignment :  (* test_tensor.cpp:103-111 *)
  eq6 (both (ip s_mul) a5) [1; 2; 3] (six 25) = true. Proof. run. Qed.
Example TensorOperatorTest_ExpectValidElementWiseDivisionAssignment :        (* test_tensor.cpp:113-121 *)
  eq6 (both (ip s_div) a5) [1; 2; 3] (six 1) = true. Proof. run. Qed.

(** Copies and moves, on the heap model; variables 0, 1, 2 are a, b, c. *)
Definition hrun (os : list (op f32)) : heap f32 * outcome unit := run (fun _ => false) os heap0.
Definition hval (r : heap f32 * outcome unit) (v : Z) : outcome tn :=
  match h_vars (fst r) v, snd r with
  | Some o, Ok _ => Ok (mkTensor (o_shape o) (load (o_ptr o) (fst r)))
  | _, _ => Abort end.
Example TensorCopyMoveTest_SelfAssignment :                                  (* test_tensor.cpp:129-136 *)
  eq6 (hval (hrun [New 0 [2; 3] (f32_of_Z 5); CopyAssign 0 0]) 0) [2; 3] (six 5) = true. Proof. run. Qed.
Example TensorCopyMoveTest_DoubleMove :                                      (* test_tensor.cpp:138-153 *)
  let r1 := hrun [New 0 [2; 3] (f32_of_Z 5); MoveNew 1 0] in
  let r2 := hrun [New 0 [2; 3] (f32_of_Z 5); MoveNew 1 0; MoveNew 2 1] in
  eq6 (hval r1 1) [2; 3] (six 5) && eq6 (hval r2 2) [2; 3] (six 5) && shaped (hval r2 1) [1] = true. Proof. run. Qed.
Example TensorCopyMoveTest_MoveAssignmentAfterCopy :                         (* test_tensor.cpp:155-170; line 158 is a move construction *)
  let r := hrun [New 0 [2; 3] (f32_of_Z 5); CopyNew 1 0; MoveNew 2 0; CopyAssign 0 1] in
  eq6 (hval r 2) [2; 3] (six 5) && eq6 (hval r 0) [2; 3] (six 5) = true. Proof. run. Qed.

Definition sc (op : tn -> f32 -> outcome tn) (v : Z) : outcome tn := a <- a5 ;; op a (f32_of_Z v).
Example TensorScalarOperatorTest_ExpectValidScalarAddition : eq6 (sc t_add_s 5) [1; 2; 3] (six 10) = true.         (* test_tensor.cpp:179-185 *)
Proof. run. Qed.
Example TensorScalarOperatorTest_ExpectValidScalarSubtraction : eq6 (sc t_sub_s 5) [1; 2; 3] (six 0) = true.       (* test_tensor.cpp:187-193 *)
Proof. run. Qed.
Example TensorScalarOperatorTest_ExpectValidScalarMultiplication : eq6 (sc t_mul_s 5) [1; 2; 3] (six 25) = true.   (* test_tensor.cpp:195-201 *)
Proof. run. Qed.
Example TensorScalarOperatorTest_ExpectValidScalarDivision : eq6 (sc t_div_s 5) [1; 2; 3] (six 1) = true.          (* test_tensor.cpp:203-209 *)
Proof. run. Qed.
Definition isc (op : f32 -> tn -> outcome tn) (v : Z) : outcome tn := a <- a5 ;; op (f32_of_Z v) a.
Example TensorScalarOperatorTest_ExpectValidScalarAdditionInverse : eq6 (isc s_add_t 5) [1; 2; 3] (six 10) = true. (* test_tensor.cpp:218-224 *)
Proof. run. Qed.
Example TensorScalarOperatorTest_ExpectValidScalarSubtractionInverse : eq6 (isc s_sub_t 6) [1; 2; 3] (six 1) = true. (* test_tensor.cpp:226-232 *)
Proof. run. Qed.
Example TensorScalarOperatorTest_ExpectValidScalarMultiplicationInverse : eq6 (isc s_mul_t 5) [1; 2; 3] (six 25) = true. (* test_tensor.cpp:234-240 *)
Proof. run. Qed.
Example TensorScalarOperatorTest_ExpectValidScalarDivisionInverse : eq6 (isc s_div_t 10) [1; 2; 3] (six 2) = true. (* test_tensor.cpp:242-248 *)
Proof. run. Qed.

(** ** tests/tensor/test_advanced_tensor_operations.cpp *)
Definition a22 := T_ [2; 2] (I [1; 2; 3; 4]).
Definition b22 := T_ [2; 2] (I [5; 6; 7; 8]).
Definition a222 := T_ [2; 2; 2] (I [1; 2; 3; 4; 5; 6; 7; 8]).
Definition b222 := T_ [2; 2; 2] (I [9; 10; 11; 12; 13; 14; 15; 16]).
Definition a23 := T_ [2; 3] (I [1; 2; 3; 4; 5; 6]).
Definition on (m : outcome tn) (f : tn -> outcome tn) : outcome tn := t <- m ;; f t.
Definition on2 (m n : outcome tn) (f : tn -> tn -> outcome tn) : outcome tn := t <- m ;; u <- n ;; f t u.
Definition plus1 (x : f32) : f32 := s_add x one.
Example AdvancedTensorOperationsTest_TestApply : eq6 (on a22 (fun t => t_apply t plus1)) [2; 2] (I [2; 3; 4; 5]) = true. (* test_advanced_tensor_operations.cpp:17-22 *)
Proof. run. Qed.
Example AdvancedTensorOperationsTest_TestApplyPair :                         (* test_advanced_tensor_operations.cpp:36-42 *)
  eq6 (on2 a22 b22 (t_apply_pair s_add)) [2; 2] (I [6; 8; 10; 12]) = true. Proof. run. Qed.
Example AdvancedTensorOperationsTest_TestMismatchShape :                     (* test_advanced_tensor_operations.cpp:44-50 *)
  throws (on2 a23 b22 (t_apply_pair s_add)) InvalidArgument = true. Proof. run. Qed.
Example AdvancedTensorOperationsTest_TestSum : eq6 (on a22 t_sum) [1] (I [10]) = true. (* test_advanced_tensor_operations.cpp:58-63 *)
Proof. run. Qed.
Example AdvancedTensorOperationsTest_TestSumAcrossAxisZero : eq6 (on a22 (fun t => t_sum_axis t 0)) [2] (I [4; 6]) = true. (* test_advanced_tensor_operations.cpp:65-71 *)
Proof. run. Qed.
Example AdvancedTensorOperationsTest_TestSumAcrossAxisOne : eq6 (on a22 (fun t => t_sum_axis t 1)) [2] (I [3; 7]) = true. (* test_advanced_tensor_operations.cpp:73-79 *)
Proof. run. Qed.
Example AdvancedTensorOperationsTest_AttemptSumAcrossInvalidAxis :           (* test_advanced_tensor_operations.cpp:81-84 *)
  throws (on a22 (fun t => t_sum_axis t 2)) RuntimeError = true. Proof. run. Qed.
Example AdvancedTensorOperationsTest_TestSumAcrossMultipleAxes :             (* test_advanced_tensor_operations.cpp:86-93 *)
  eq6 (on a222 (fun t => t_sum_axes t [0; 2])) [2] (I [14; 22]) = true. Proof. run. Qed.

Definition third := q 333333 1000000.
Definition recip eps (l : list f32) : outcome tn := on (T_ [2; 2] l) (t_reciprocal eps).
Example AdvancedTensorOperationsTest_TestReciprocal :                        (* test_advanced_tensor_operations.cpp:101-106, default epsilon 1e-12 *)
  eq6 (recip (q 1 1000000000000) (I [1; 2; 3; 4])) [2; 2] [f32_of_Z 1; q 1 2; third; q 1 4] = true. Proof. run. Qed.
(** 1e6 is compared to 1/1e-6f with a tolerance of 1e-6, so the division must give exactly 1e6. *)
Example AdvancedTensorOperationsTest_TestReciprocalWithEpsilon :             (* test_advanced_tensor_operations.cpp:108-113 *)
  eq6 (recip (q 1 1000000) (I [1; 0; 3; 4])) [2; 2] [f32_of_Z 1; f32_of_Z 1000000; third; q 1 4] = true. Proof. run. Qed.
Example AdvancedTensorOperationsTest_TestReciprocalWithZero :                (* test_advanced_tensor_operations.cpp:115-120 *)
  eq6 (recip (q 1 1000000) (I [0; 0; 0; 0])) [2; 2] (I [1000000; 1000000; 1000000; 1000000]) = true. Proof. run. Qed.
Example AdvancedTensorOperationsTest_TestReciprocalWithNegativeEpsilon :     (* test_advanced_tensor_operations.cpp:124-129 *)
  eq6 (recip (q (-1) 1000000) [f32_of_Z 1; q (-1) 100; f32_of_Z 3; f32_of_Z 4]) [2; 2] [f32_of_Z 1; f32_of_Z (-100); third; q 1 4] = true.
Proof. run. Qed.

Example AdvancedTensorOperationsTest_TestMean : eq6 (on a22 (fun t => t_mean_axes t [0; 1])) [1] [q 5 2] = true. (* test_advanced_tensor_operations.cpp:137-142 *)
Proof. run. Qed.
Example AdvancedTensorOperationsTest_TestMeanAcrossAxisZero : eq6 (on a22 (fun t => t_mean_axes t [0])) [1; 2] (I [2; 3]) = true. (* test_advanced_tensor_operations.cpp:144-150 *)
Proof. run. Qed.
Example AdvancedTensorOperationsTest_TestMeanAcrossAxisOne : eq6 (on a22 (fun t => t_mean_axes t [1])) [2; 1] [q 3 2; q 7 2] = true. (* test_advanced_tensor_operations.cpp:152-158 *)
Proof. run. Qed.
Example AdvancedTensorOperationsTest_TestMeanAcrossAllAxes : eq6 (on a222 t_mean_all) [1] [q 9 2] = true. (* test_advanced_tensor_operations.cpp:160-167 *)
Proof. run. Qed.
Example AdvancedTensorOperationsTest_TestVarianceMultiplication :            (* test_advanced_tensor_operations.cpp:175-181 *)
  eq6 (on2 a22 (T_ [2; 2] (I [2; 3; 4; 5])) t_variance_all) [1] (I [1]) = true. Proof. run. Qed.
Example AdvancedTensorOperationsTest_TestVarianceMultiplicationWithZeroMean : (* test_advanced_tensor_operations.cpp:183-189 *)
  eq6 (on2 a22 (T_ [2; 2] (I [0; 0; 0; 0])) t_variance_all) [1] [q 15 2] = true. Proof. run. Qed.

Example AdvancedTensorOperationsTest_TestTranspose :                         (* test_advanced_tensor_operations.cpp:197-202 *)
  eq6 (on a23 (fun t => t_transpose t 0 1)) [3; 2] (I [1; 4; 2; 5; 3; 6]) = true. Proof. run. Qed.
Example AdvancedTensorOperationsTest_TestTranspose4D :                       (* test_advanced_tensor_operations.cpp:204-212 *)
  eq6 (on (T_ [2; 2; 2; 2] (I [1; 2; 3; 4; 5; 6; 7; 8; 9; 10; 11; 12; 13; 14; 15; 16])) (fun t => t_transpose t 0 2)) [2; 2; 2; 2]
    (I [1; 2; 9; 10; 5; 6; 13; 14; 3; 4; 11; 12; 7; 8; 15; 16]) = true. Proof. run. Qed.
Example AdvancedTensorOperationsTest_TestTransposeWithInvalidDimensions :    (* test_advanced_tensor_operations.cpp:214-218 *)
  throws (on a23 (fun t => t_transpose t 0 2)) InvalidArgument = true. Proof. run. Qed.
Example AdvancedTensorOperationsTest_TestReshape :                           (* test_advanced_tensor_operations.cpp:226-231 *)
  eq6 (on a23 (fun t => t_reshape t [3; 2])) [3; 2] (I [1; 2; 3; 4; 5; 6]) = true. Proof. run. Qed.
Example AdvancedTensorOperationsTest_TestReshapeWithInvalidSize :            (* test_advanced_tensor_operations.cpp:234-238 *)
  throws (on a23 (fun t => t_reshape t [3; 3])) RuntimeError = true. Proof. run. Qed.

Definition mul m n := on2 m n t_matmul.
Definition v3 := T_ [3] (I [1; 2; 3]).
Example AdvancedTensorOperationsTest_TestDotProduct : eq6 (mul v3 (T_ [3] (I [4; 5; 6]))) [1] (I [32]) = true. (* test_advanced_tensor_operations.cpp:249-255 *)
Proof. run. Qed.
Example AdvancedTensorOperationsTest_TestDotProductWithMismatchedDimensions :
  throws (mul v3 (T_ [2] (I [4; 5]))) InvalidArgument = true. (* test_advanced_tensor_operations.cpp:257-261 *)
Proof. run. Qed.
Example AdvancedTensorOperationsTest_TestMatrixVectorMul :                   (* test_advanced_tensor_operations.cpp:265-271 *)
  eq6 (mul (T_ [2] (I [1; 2])) (T_ [2; 2] (I [3; 4; 5; 6]))) [2] (I [13; 16]) = true. Proof. run. Qed.
Example AdvancedTensorOperationsTest_TestMatrixVectorMulWithMismatchedDimensions : (* test_advanced_tensor_operations.cpp:273-277 *)
  throws (mul v3 (T_ [2; 2] (I [3; 4; 5; 6]))) InvalidArgument = true. Proof. run. Qed.
Example AdvancedTensorOperationsTest_TestVectorMatrixMul :                   (* test_advanced_tensor_operations.cpp:281-287 *)
  eq6 (mul a22 (T_ [2] (I [5; 6]))) [2] (I [17; 39]) = true. Proof. run. Qed.
Example AdvancedTensorOperationsTest_TestVectorMatrixMulWithMismatchedDimensions : (* test_advanced_tensor_operations.cpp:289-293 *)
  throws (mul a22 (T_ [3] (I [5; 6; 7]))) InvalidArgument = true. Proof. run. Qed.
Example AdvancedTensorOperationsTest_TestMatrixMatrixMul :                   (* test_advanced_tensor_operations.cpp:297-303 *)
  eq6 (mul a23 (T_ [3; 2] (I [7; 8; 9; 10; 11; 12]))) [2; 2] (I [58; 64; 139; 154]) = true. Proof. run. Qed.
Example AdvancedTensorOperationsTest_TestMatrixMatrixMulWithMismatchedDimensions : (* test_advanced_tensor_operations.cpp:305-309 *)
  throws (mul a23 (T_ [2; 2] (I [7; 8; 9; 10]))) InvalidArgument = true. Proof. run. Qed.
Example AdvancedTensorOperationsTest_TestMatrix2DMatrix3DMul :               (* test_advanced_tensor_operations.cpp:313-323 *)
  eq6 (mul a22 b222) [2; 2; 2] (I [31; 34; 71; 78; 43; 46; 99; 106]) = true. Proof. run. Qed.
Example AdvancedTensorOperationsTest_TestMatrix3DMatrix3DMul :               (* test_advanced_tensor_operations.cpp:327-337 *)
  eq6 (mul a222 b222) [2; 2; 2] (I [31; 34; 71; 78; 155; 166; 211; 226]) = true. Proof. run. Qed.
Definition upto n := I (zrange 1 (n + 1)).
Example AdvancedTensorOperationsTest_TestBatchedMatrixMultiplication :       (* test_advanced_tensor_operations.cpp:341-396 *)
  eq6 (mul (T_ [2; 3; 4] (upto 24)) (T_ [2; 4; 5] (upto 40))) [2; 3; 5]
    (I [110; 120; 130; 140; 150; 246; 272; 298; 324; 350; 382; 424; 466; 508; 550; 1678; 1736; 1794; 1852; 1910; 2134;
        2208; 2282; 2356; 2430; 2590; 2680; 2770; 2860; 2950]) &&
  eq6 (mul (T_ [3; 2; 3] (upto 18)) (T_ [3; 3; 2] (upto 18))) [3; 2; 2]
    (I [22; 28; 49; 64; 220; 244; 301; 334; 634; 676; 769; 820]) &&
  eq6 (mul a222 (T_ [2; 2] (I [9; 10; 11; 12]))) [2; 2; 2] (I [31; 34; 71; 78; 111; 122; 151; 166]) = true. Proof. run. Qed.

(** ** tests/layers/test_fully_connected.cpp and tests/tensor/test_layers.cpp *)
(** Random numbers for the constructors: all 1/2.  The hard-coded tests overwrite the weights. *)
Definition half_rng : Rng f32 unit := {| rng_seed := fun _ => tt; rng_normal := fun _ g => (q 1 2, g); rng_uniform := fun _ _ g => (q 1 2, g) |}.
Definition fc_with (n_in n_out : Z) (w b : outcome tn) : outcome (fc f32) :=
  ' (l, _) <- fc_new (H := half_rng) n_in n_out tt ;; w <- w ;; b <- b ;;
  match fc_set_biases (fc_set_weights l w) b with (l', Ok _) => Ok l' | (_, _) => Abort end.
Definition fc23 := fc_with 2 3 a23 (T_ [1; 3] [q 1 10; q 2 10; q 3 10]).
Definition x22 := a22.
Definition fwd {L} (l : outcome L) (f : L -> tn -> L * outcome tn) (x : outcome tn) : outcome (L * tn) :=
  l <- l ;; x <- x ;; match f l x with (l', Ok y) => Ok (l', y) | (_, Throw e) => Throw e | (_, UB) => UB | (_, _) => Abort end.
Definition res {L} (m : outcome (L * tn)) : outcome tn := p <- m ;; Ok (snd p).
Definition lay {L} (m : outcome (L * tn)) : outcome L := p <- m ;; Ok (fst p).
Definition grad {L} (m : outcome (L * tn)) (g : L -> option tn) : outcome tn :=
  p <- m ;; match g (fst p) with Some t => Ok t | None => Abort end.
Example FullyConnectedLayerTest_ForwardPassHardcodedFullyConnected : (* test_fully_connected.cpp:13-39 *)
  eq5 (res (fwd fc23 fc_forward (T_ [1; 2] (I [1; 1])))) [1; 3] [q 51 10; q 72 10; q 93 10] = true. Proof. run. Qed.
Definition fc_out := fwd fc23 fc_forward x22.
Definition fc_back := fwd (lay fc_out) fc_backward (T_ [2; 3] (I [1; 1; 1; 1; 1; 1])).
Example FullyConnectedLayerTest_ComprehensiveForwardAndBackwardPass :        (* test_fully_connected.cpp:95-148 *)
  eq5 (res fc_out) [2; 3] [q 91 10; q 122 10; q 153 10; q 191 10; q 262 10; q 333 10] &&
  eq5 (res fc_back) [2; 2] (I [6; 15; 6; 15]) &&
  eq5 (grad fc_back fc_gw) [2; 3] (I [4; 4; 4; 6; 6; 6]) &&
  eq5 (grad fc_back fc_gb) [1; 3] (I [2; 2; 2]) = true. Proof. run. Qed.
Example FullyConnectedLayerTest_DifferentInputShapes :                       (* test_fully_connected.cpp:150-177 *)
  let l := fc_with 3 2 (T_ [3; 2] (I [1; 2; 3; 4; 5; 6])) (T_ [1; 2] [q 1 10; q 2 10]) in
  let o1 := fwd l fc_forward v3 in
  let o2 := fwd (lay o1) fc_forward a23 in
  let r := fwd (lay o2) fc_backward (T_ [2; 2] (I [1; 1; 1; 1])) in
  shaped (res o1) [2] && shaped (res o2) [2; 2] && shaped (res r) [2; 3] && shaped (grad r fc_gb) [1; 2] = true. Proof. run. Qed.
Definition fc43 : outcome (fc f32) := p <- fc_new (H := half_rng) 4 3 tt ;; Ok (fst p).
Example FullyConnectedLayerTest_ForwardPass :                                (* test_layers.cpp:150-166 *)
  let o := res (fwd fc43 fc_forward (K_ [1; 4] (f32_of_Z 1))) in shaped o [1; 3] && all_finite o = true. Proof. run. Qed.
Definition fc43_back := fwd (lay (fwd fc43 fc_forward (K_ [2; 4] (f32_of_Z 1)))) fc_backward (K_ [2; 3] (f32_of_Z 1)).
Example FullyConnectedLayerTest_BackwardPass :                               (* test_layers.cpp:168-191 *)
  shaped (res fc43_back) [2; 4] && shaped (grad fc43_back fc_gw) [4; 3] && shaped (grad fc43_back fc_gb) [1; 3] = true. Proof. run. Qed.
(** optimizer.optimize(weights, gradients): two tensors at addresses 0 and 1. *)
Definition adam_lr (lr : f32) : adam f32 := adam_new lr (q 9 10) (q 999 1000) (q 1 100000000) zero zero zero 1.
Definition minus1 := f32_of_Z (-1).
Definition all_differ (a b : tn) : bool :=
  (Zlen (tdata a) =? Zlen (tdata b)) && forallb (fun p => negb (SFeqb (fst p) (snd p))) (combine (tdata a) (tdata b)).
Definition updated (lr : f32) (w b : tn) (gw gb : option tn) : bool :=
  match gw, gb with
  | Some gw, Some gb =>
      match adam_optimize (adam_lr lr) (fun k => if k =? 0 then w else b) [0; 1] [gw; gb] minus1 with
      | (_, st, Ok _) => all_differ (st 0) w && all_differ (st 1) b
      | _ => false
      end
  | _, _ => false
  end.
Example FullyConnectedLayerTest_WeightUpdate :                               (* test_layers.cpp:193-227 *)
  match lay fc43_back with Ok l => updated (q 1 1000) (fc_w l) (fc_b l) (fc_gw l) (fc_gb l) | _ => false end = true. Proof. run. Qed.

(** ** Dropout (test_layers.cpp:236-293), with the draws of [half_rng] *)
Definition drop_fwd (rate : f32) (train : bool) : dropout f32 * unit * outcome tn :=
  match K_ [2; 4] (f32_of_Z 1) with
  | Ok x => dropout_forward (H := half_rng) (dropout_set_mode (dropout_new rate) train) x tt
  | _ => (dropout_new rate, tt, Abort) end.
Example DropoutLayerTest_ForwardPassTraining :                               (* test_layers.cpp:236-256; every draw is below the rate 0.75 *)
  eq6 (snd (drop_fwd (q 3 4) true)) [2; 4] (I [0; 0; 0; 0; 0; 0; 0; 0]) = true. Proof. run. Qed.
Example DropoutLayerTest_ForwardPassInference :                              (* test_layers.cpp:258-273 *)
  (x <- K_ [2; 4] (f32_of_Z 1) ;; y <- snd (drop_fwd (q 1 2) false) ;; t_eqb x y) = Ok true. Proof. run. Qed.
Example DropoutLayerTest_BackwardPass :                                      (* test_layers.cpp:275-293 *)
  shaped (g <- K_ [2; 4] (f32_of_Z 1) ;; dropout_backward (fst (fst (drop_fwd (q 1 2) true))) g) [2; 4] = true. Proof. run. Qed.

(** ** Batch normalisation (test_layers.cpp:331-376); constructor defaults epsilon 1e-5, momentum 0.9 *)
Definition bn_of n := bn_new n (q 1 100000) (q 9 10).
Definition bn_x := T_ [2; 4] (upto 8).
Definition bn_out := fwd (bn_of 4) bn_forward bn_x.
Example BatchNormalizationLayerTest_ForwardPass2D : shaped (res bn_out) [2; 4] = true. Proof. run. Qed. (* test_layers.cpp:331-343 *)
Example BatchNormalizationLayerTest_ForwardPass4D :                          (* test_layers.cpp:345-356 *)
  shaped (res (fwd (bn_of 3) bn_forward (K_ [2; 3; 4; 4] (f32_of_Z 1)))) [2; 3; 4; 4] = true. Proof. run. Qed.
(** test_layers.cpp:358-376.  The test expects shape (2,4).  In the model the call is undefined behaviour: dVariance has
    rank 1 and reshapeForBroadcast reads its second dimension (BatchNormalizationLayer.hpp:80 and 126).  The compiled test
    may still pass, depending on what lies after that one-element vector.  See C52. *)
Example BatchNormalizationLayerTest_BackwardPass :
  fwd (lay bn_out) bn_backward (K_ [2; 4] (f32_of_Z 1)) = UB. Proof. run. Qed.

(** ** tests/layers/test_conv_2d.cpp and the convolution tests of test_layers.cpp *)
Definition conv_of ic oc k : outcome (conv f32) := p <- conv_new (H := half_rng) ic oc k k 1 0 1 tt ;; Ok (fst p).
Definition conv_with (l : outcome (conv f32)) (w b : outcome tn) : outcome (conv f32) :=
  l <- l ;; w <- w ;; b <- b ;;
  Ok (mkConv w b (cv_in l) (cv_gw l) (cv_gb l) (cv_ic l) (cv_oc l) (cv_kh l) (cv_kw l) (cv_stride l) (cv_pad l) (cv_dil l)).
Definition cw := [1; 0; -1; 0; 1; 0; -1; 0; 1].
Definition cx := [1; 2; 3; 4; 5; 2; 3; 4; 5; 6; 3; 4; 5; 6; 7; 4; 5; 6; 7; 8; 5; 6; 7; 8; 9].
Definition conv1 := conv_with (conv_of 1 1 3) (T_ [1; 1; 3; 3] (I cw)) (T_ [1; 1] [q 1 10]).
Definition conv_out := fwd conv1 conv_forward (T_ [1; 1; 5; 5] (I cx)).
Example Conv2DLayerTest_ForwardPassHardcodedConv2D :                         (* test_conv_2d.cpp:15-57 *)
  eq5 (res conv_out) [1; 1; 3; 3] [q 31 10; q 41 10; q 51 10; q 41 10; q 51 10; q 61 10; q 51 10; q 61 10; q 71 10] = true. Proof. run. Qed.
Definition conv_back := fwd (lay conv_out) conv_backward (T_ [1; 1; 3; 3] (I [1; 1; 1; 1; 1; 1; 1; 1; 1])).
(** The loop of test_conv_2d.cpp:91-101, over integers. *)
Definition expected_input_grad : list Z :=
  map (fun p => fold_left Z.add (flat_map (fun oh => flat_map (fun ow => flat_map (fun kh => map (fun kw =>
    if (oh + kh =? p / 5) && (ow + kw =? p mod 5) then znth 0 cw (kh * 3 + kw) else 0) (zrange 0 3)) (zrange 0 3)) (zrange 0 3)) (zrange 0 3)) 0)
  (zrange 0 25).
Example Conv2DLayerTest_BackwardPassHardcodedConv2D :                        (* test_conv_2d.cpp:59-131 *)
  eq5 (res conv_back) [1; 1; 5; 5] (I expected_input_grad) &&
  eq5 (grad conv_back cv_gw) [1; 1; 3; 3] (I [27; 36; 45; 36; 45; 54; 45; 54; 63]) &&
  eq5 (grad conv_back cv_gb) [1; 1] (I [9]) = true. Proof. run. Qed.
Definition conv2 := fwd (conv_of 1 2 3) conv_forward (K_ [4; 1; 5; 5] (f32_of_Z 1)).
Example Conv2DLayerTest_ForwardPassShape : shaped (res conv2) [4; 2; 3; 3] && all_finite (res conv2) = true. (* test_layers.cpp:20-38 *)
Proof. run. Qed.
Definition conv2_back := fwd (lay conv2) conv_backward (K_ [4; 2; 3; 3] (f32_of_Z 1)).
Example Conv2DLayerTest_BackwardPassShape : shaped (res conv2_back) [4; 1; 5; 5] = true. (* test_layers.cpp:40-57 *)
Proof. run. Qed.
(** test_layers.cpp:80-141, with all-one inputs and gradients instead of random ones.  The test asserts that some weight and
    some bias changed, which holds.  The parameters of output channel 1 stay as they were, because their gradients are zero
    (see C46); the test does not look at them separately. *)
Definition unchanged (a b : tn) (from n : Z) : bool :=
  forallb (fun i => SFeqb (znth zero (tdata a) (from + i)) (znth zero (tdata b) (from + i))) (zrange 0 n).
Example Conv2DLayerTest_WeightUpdate :
  match lay conv2_back with
  | Ok l => match cv_gw l, cv_gb l with
            | Some gw, Some gb =>
                match adam_optimize (adam_lr (q 1 100)) (fun k => if k =? 0 then cv_w l else cv_b l) [0; 1] [gw; gb] minus1 with
                | (_, st, Ok _) =>
                    negb (unchanged (st 0) (cv_w l) 0 9) && negb (unchanged (st 1) (cv_b l) 0 1) &&
                    unchanged (st 0) (cv_w l) 9 9 && unchanged (st 1) (cv_b l) 1 1
                | _ => false end
            | _, _ => false end
  | _ => false end = true. Proof. run. Qed.
Example Conv2DLayerTest_WeightUpdateWithOptimizer :                          (* test_conv_2d.cpp:152-178 *)
  match lay (fwd (lay (fwd (conv_of 1 1 3) conv_forward (K_ [1; 1; 5; 5] (f32_of_Z 1)))) conv_backward (K_ [1; 1; 3; 3] (f32_of_Z 1))) with
  | Ok l => updated (q 1 100) (cv_w l) (cv_b l) (cv_gw l) (cv_gb l) | _ => false end = true. Proof. run. Qed.
(** test_conv_2d.cpp:133-150 uses 32x32 images; the same layer on 5x5 images. *)
Example Conv2DLayerTest_DifferentInputShapes :
  let o1 := fwd (conv_of 3 2 3) conv_forward (K_ [1; 3; 5; 5] zero) in
  let o2 := fwd (lay o1) conv_forward (K_ [5; 3; 5; 5] zero) in
  let r := fwd (lay o2) conv_backward (K_ [5; 2; 3; 3] zero) in
  shaped (res o1) [1; 2; 3; 3] && shaped (res o2) [5; 2; 3; 3] && shaped (res r) [5; 3; 5; 5] = true. Proof. run. Qed.

(** ** tests/activations/test_activations.cpp, the two without transcendental functions *)
Definition act_x := T_ [2; 3] (I [-2; -1; 0; 1; 2; 3]).
Definition ones23 := T_ [2; 3] (six 1).
Example LeakyReLUTest_ForwardPass :                                          (* test_activations.cpp:21-33 *)
  eq5 (on act_x (leaky_fwd (q 1 10))) [2; 3] [q (-2) 10; q (-1) 10; zero; one; f32_of_Z 2; f32_of_Z 3] = true. Proof. run. Qed.
Example LeakyReLUTest_BackwardPass :                                         (* test_activations.cpp:35-50 *)
  eq5 (on2 act_x ones23 (leaky_bwd (q 1 10))) [2; 3] [q 1 10; q 1 10; one; one; one; one] = true. Proof. run. Qed.
Example ReLUTest_ForwardPass : eq5 (on act_x relu_fwd) [2; 3] (I [0; 0; 0; 1; 2; 3]) = true. (* test_activations.cpp:52-64 *)
Proof. run. Qed.
Example ReLUTest_BackwardPass : eq5 (on2 act_x ones23 relu_bwd) [2; 3] (I [0; 0; 0; 1; 1; 1]) = true. (* test_activations.cpp:66-79 *)
Proof. run. Qed.

(** ** tests/optimizers *)
Definition sgd1 (o : sgd f32) (w g : outcome tn) (lro : f32) : outcome (sgd f32 * tn) :=
  w <- w ;; g <- g ;;
  match sgd_optimize o (fun _ => w) [0] [g] lro with (o', st, Ok _) => Ok (o', st 0) | _ => Abort end.
Definition rms1 (o : rms f32) (w g : outcome tn) (lro : f32) : outcome (rms f32 * tn) :=
  w <- w ;; g <- g ;;
  match rms_optimize o (fun _ => w) [0] [g] lro with (o', st, Ok _) => Ok (o', st 0) | _ => Abort end.
Definition sgd_opt lr mom wd nest : sgd f32 := sgd_new lr mom zero wd nest.
Definition w11 := T_ [1; 1] (I [1]).
Definition g11 := T_ [1; 1] [q 1 10].
Definition w21 := T_ [2; 1] (I [1; 2]).
Definition g21 := T_ [2; 1] [q 1 10; q 2 10].
Example SGDOptimizerTest_BasicSGDWithoutMomentum :                           (* test_sgd_optimizer.cpp:11-42 *)
  eq6 (res (sgd1 (sgd_opt (q 1 10) zero zero false) a22 (T_ [2; 2] [q 1 10; q 2 10; q 3 10; q 4 10]) minus1)) [2; 2]
    [q 99 100; q 198 100; q 297 100; q 396 100] = true. Proof. run. Qed.
Definition sgd_m1 := sgd1 (sgd_opt (q 1 10) (q 9 10) zero false) w21 g21 minus1.
Example SGDOptimizerTest_SGDWithMomentum :                                   (* test_sgd_optimizer.cpp:45-84 *)
  eq6 (res sgd_m1) [2; 1] [q 99 100; q 198 100] &&
  eq5 (res (p <- sgd_m1 ;; sgd1 (fst p) (Ok (snd p)) g21 minus1)) [2; 1] [q 971 1000; q 1942 1000] = true. Proof. run. Qed.
Example SGDOptimizerTest_SGDWithNesterovMomentum :                           (* test_sgd_optimizer.cpp:87-108 *)
  eq6 (res (sgd1 (sgd_opt (q 1 10) (q 9 10) zero true) w11 g11 minus1)) [1; 1] [q 981 1000] = true. Proof. run. Qed.
Example SGDOptimizerTest_SGDWithWeightDecay :                                (* test_sgd_optimizer.cpp:111-131 *)
  eq6 (res (sgd1 (sgd_opt (q 1 10) zero (q 1 100) false) w11 g11 minus1)) [1; 1] [q 989 1000] = true. Proof. run. Qed.
Example SGDOptimizerTest_LearningRateOverride :                              (* test_sgd_optimizer.cpp:134-153 *)
  eq6 (res (sgd1 (sgd_opt (q 1 10) zero zero false) w11 g11 (q 2 10))) [1; 1] [q 98 100] = true. Proof. run. Qed.

Definition rms_opt lr mom cent wd : rms f32 := rms_new lr (q 9 10) (q 1 100000000) mom cent wd.
Definition elem (m : outcome tn) (i : Z) : f32 := match m with Ok t => znth S754_nan (tdata t) i | _ => S754_nan end.
Example RMSPropOptimizerTest_BasicRMSProp :                                  (* test_rmsprop_optimizer.cpp:11-39 *)
  let r := res (rms1 (rms_opt (q 1 10) zero false zero) w21 g21 minus1) in
  SFltb (elem r 0) one && SFltb (elem r 1) (f32_of_Z 2) = true. Proof. run. Qed.
Example RMSPropOptimizerTest_RMSPropWithMomentum :                           (* test_rmsprop_optimizer.cpp:42-72 *)
  let r1 := rms1 (rms_opt (q 1 100) (q 9 10) false zero) w11 g11 minus1 in
  let r2 := res (p <- r1 ;; rms1 (fst p) (Ok (snd p)) g11 minus1) in
  SFltb (s_sub one (elem (res r1) 0)) (s_sub (elem (res r1) 0) (elem r2 0)) = true. Proof. run. Qed.
Example RMSPropOptimizerTest_CenteredRMSProp :                               (* test_rmsprop_optimizer.cpp:75-97 *)
  SFltb (elem (res (rms1 (rms_opt (q 1 10) zero true zero) w11 g11 minus1)) 0) one = true. Proof. run. Qed.
Example RMSPropOptimizerTest_RMSPropWithWeightDecay :                        (* test_rmsprop_optimizer.cpp:100-121 *)
  SFltb (elem (res (rms1 (rms_opt (q 1 100) zero false (q 1 100)) w11 (T_ [1; 1] (I [0])) minus1)) 0) one = true. Proof. run. Qed.
Example RMSPropOptimizerTest_LearningRateOverride :                          (* test_rmsprop_optimizer.cpp:124-154 *)
  let o := rms_opt (q 1 100) zero false zero in
  SFltb (s_sub one (elem (res (rms1 o w11 g11 minus1)) 0)) (s_sub one (elem (res (rms1 o w11 g11 (q 1 10))) 0)) = true. Proof. run. Qed.
Example RMSPropOptimizerTest_NumericalStabilitySmallGradients :              (* test_rmsprop_optimizer.cpp:157-178 *)
  let x := elem (res (rms1 (rms_opt (q 1 10) zero false zero) w11 (T_ [1; 1] [q 1 10000000000]) minus1)) 0 in
  finite x && negb (SFeqb x one) = true. Proof. run. Qed.
