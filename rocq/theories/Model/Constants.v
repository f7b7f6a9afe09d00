(** The constants of a model, from the ONNX file to the circuit.
    Paths are relative to /repo/rust.  Simplifications: f64 values are rationals (no rounding of
    the product, no infinities, no saturation of the casts to i64); attributes, shapes and the
    nesting of the tensors are left out. *)
From Coq Require Import List Arith Bool ZArith QArith Qround String.
From Verif Require Import Model.Resize.
Import ListNotations.
Local Open Scope string_scope.
Local Open Scope nat_scope.

(** jstprove_onnx/src/graph.rs OpType: those with a scale plan by name, the rest by a name *)
Inductive op := Conv | Gemm | BatchNormalization | LayerNormalization | GridSample | MatMul | ConvTranspose | Op (name : string).
(** jstprove_onnx/src/ops.rs:5-51 get_scale_plan: input position, power of alpha *)
Definition get_scale_plan (o : op) : list (nat * nat) :=
  match o with
  | Conv | Gemm | BatchNormalization | LayerNormalization | ConvTranspose => [(1, 1); (2, 2)]
  | GridSample | MatMul => [(1, 1)]
  | Op _ => []
  end.
(** jstprove_onnx/src/parser.rs TensorData *)
Record tensor_data := { float_data : list Q; int_data : list Z }.
(** jstprove_onnx/src/graph.rs LayerNode: its inputs and its own copies of its weights *)
Record layer_node := { op_type : op; inputs : list string; weights : list (string * tensor_data) }.

(** HashMap::get *)
Fixpoint lookup {A} (name : string) (l : list (string * A)) : option A :=
  match l with [] => None | (n, a) :: r => if (n =? name)%string then Some a else lookup name r end.
(** HashMap::get_mut *)
Definition update {A} (name : string) (f : A -> A) (l : list (string * A)) : list (string * A) :=
  map (fun '(n, a) => (n, if (n =? name)%string then f a else a)) l.

(** jstprove_onnx/src/quantizer.rs:158-170, one weight *)
Definition quantize_weight (factor : Z) (w : tensor_data) : tensor_data :=
  match float_data w with
  | [] => w
  | _ => {| float_data := []; int_data := map (fun v => round_away (v * inject_Z factor)%Q) (float_data w) |}
  end.
(** jstprove_onnx/src/quantizer.rs:153-174 quantize_layer_weights; the plan is walked in the
    order of its positions (the code walks a HashMap, in any order) *)
Definition quantize_layer_weights (alpha : Z) (l : layer_node) : layer_node :=
  {| op_type := op_type l; inputs := inputs l;
     weights := fold_left (fun ws '(input_pos, scale_factor) =>
       match nth_error (inputs l) input_pos with
       | Some name => update name (quantize_weight (alpha ^ Z.of_nat scale_factor)) ws
       | None => ws
       end) (get_scale_plan (op_type l)) (weights l) |}.
(** [f as i64] *)
Definition truncate (q : Q) : Z := if Qle_bool 0 q then Qfloor q else Qceiling q.
(** jstprove_onnx/src/parser.rs:261-267 as_i64_vec *)
Definition as_i64_vec (w : tensor_data) : list Z :=
  match int_data w with [] => map truncate (float_data w) | l => l end.
(** jstprove_circuits/src/expander_metadata.rs:349-389 build_wandb: the first layer with the
    name wins *)
Definition build_wandb (layers : list layer_node) : list (string * list Z) :=
  fold_left (fun acc l =>
    fold_left (fun acc '(name, td) =>
      match lookup name acc with Some _ => acc | None => (acc ++ [(name, as_i64_vec td)])%list end) (weights l) acc) layers [].
(** What a layer reads for the input [name]: quantizer.rs:142-144 and
    jstprove_circuits/src/circuit_functions/utils/onnx_model.rs:209-287 get_w_or_b *)
Definition circuit_constant (alpha : Z) (layers : list layer_node) (name : string) : option (list Z) :=
  lookup name (build_wandb (map (quantize_layer_weights alpha) layers)).
