(** The bound analysis of the quantizer: the scale, and the number of bits of every range check.
    Paths are relative to /repo/rust/jstprove_onnx/src.  Simplifications: f64 values are real
    numbers (no rounding; the two overflow guards are kept); HashMaps are association lists, the
    newest entry first; the shapes that propagate_shapes (quantizer.rs:411-1226) computes are a
    parameter; errors are None. *)
From Coq Require Import List Arith Bool Reals String ZArith.
From Verif Require Import Spec.Shapes Spec.Tensors Spec.RealOps.
From Verif Require Model.Constants.
Import ListNotations.
Local Open Scope string_scope.
Local Open Scope nat_scope.
Local Open Scope R_scope.

(** graph.rs:169-180 LayerNode: the node, its name and its own copies of the constants it reads *)
Record layer := { name : string; body : node; weights : list (string * tensor R) }.
(** graph.rs:155-165 needs_rescale *)
Definition needs_rescale (k : op) : bool :=
  match k with Gemm | Conv | BatchNormalization | Mul | MatMul | ConvTranspose => true | _ => false end.
(** quantizer.rs:1884-1911 is_range_check_op *)
Definition is_range_check_op (k : op) : bool :=
  match k with
  | Relu | LeakyRelu | MaxPool | Max | Min | Clip | Exp | Softmax | Sigmoid | Gelu | Resize | GridSample | TopK
  | AveragePool | Sqrt | Tanh | Erf | Pow | HardSwish | GlobalAveragePool | Sin | Cos => true
  | _ => false
  end.

Definition map_get {A} (s : string) (l : list (string * A)) : option A := Constants.lookup s l.
(** the weight tensor an input names *)
Definition weight_at (l : layer) (i : nat) : option (tensor R) :=
  match nth_error (inputs (body l)) i with Some s => map_get s (weights l) | None => None end.
(** .map(abs).fold(0.0, max) and .map(abs).sum() *)
Definition max_list (l : list R) : R := fold_left Rmax l 0.
Definition max_abs (l : list R) : R := max_list (map Rabs l).
Definition l1 (l : list R) : R := fold_left Rplus (map Rabs l) 0.

(** quantizer.rs:1328-1344 get_input_bound *)
Definition input_bound (bounds : list (string * R)) (l : layer) (i : nat) : R :=
  match nth_error (inputs (body l)) i with
  | None => 1
  | Some s =>
      match map_get s bounds with
      | Some b => b
      | None =>
          match map_get s (weights l) with
          | Some w => match flat w with [] => 1 | v => max_abs v end
          | None => 1
          end
      end
  end.
(** quantizer.rs:1346-1357 get_bias_bound *)
Definition bias_bound (l : layer) (i : nat) : R :=
  match weight_at l i with Some b => max_abs (flat b) | None => 0 end.
(** the same with another default, e.g. quantizer.rs:1472-1480 *)
Definition scale_bound (l : layer) (i : nat) : R :=
  match weight_at l i with Some b => max_abs (flat b) | None => 1 end.
(** quantizer.rs:1359-1398 max_output_channel_l1 *)
Definition max_output_channel_l1 (l : layer) (i out_channels : nat) : option R :=
  match weight_at l i with
  | None => None
  | Some w =>
      let vals := flat w in
      if (out_channels =? 0)%nat || (List.length vals =? 0)%nat then None
      else if negb (List.length vals mod out_channels =? 0)%nat then None
      else let per_channel := (List.length vals / out_channels)%nat in
        Some (max_list (map (fun oc => l1 (firstn per_channel (skipn (oc * per_channel) vals))) (seq 0 out_channels)))
  end.
(** [vals.iter().skip(c).step_by(n)] *)
Definition strided (vals : list R) (c n : nat) : list R :=
  map (fun i => nth (c + i * n) vals 0) (filter (fun i => c + i * n <? List.length vals)%nat (seq 0 (List.length vals))).
(** f64::powf for a non-negative base *)
Definition powf (b e : R) : R :=
  if Req_EM_T b 0 then (if Req_EM_T e 0 then 1 else 0) else Rpower b e.
Definition f64_max : R := (2 - / 2 ^ 52) * 2 ^ 1023.

(** quantizer.rs:1323-1882 compute_layer_bound *)
Definition compute_layer_bound (l : layer) (bounds : list (string * R)) (alpha : R) : option R :=
  let m i := input_bound bounds l i in
  match kind (body l) with
  | Conv =>
      match weight_at l 1 with
      | None => None
      | Some w =>
          let d := dims w in
          let c_out := if (4 <=? List.length d)%nat then nth 0 d 0%nat else 1%nat in
          match max_output_channel_l1 l 1 c_out with
          | None => None
          | Some weight => Some (weight * m 0%nat + bias_bound l 2)
          end
      end
  | Gemm =>
      match weight_at l 1 with
      | None => None
      | Some w =>
          let d := dims w in
          let vals := flat w in
          let n_out := if (2 <=? List.length d)%nat then (if trans_b (body l) then nth 0 d 0%nat else nth 1 d 0%nat) else 1%nat in
          let weight_l1 :=
            if trans_b (body l) then max_output_channel_l1 l 1 n_out
            else if (2 <=? List.length d)%nat then
              let rows := nth 0 d 0%nat in
              let cols := nth 1 d 0%nat in
              if (cols =? 0)%nat || (List.length vals =? 0)%nat || negb (List.length vals =? rows * cols)%nat then None
              else Some (max_list (map (fun c => l1 (map (fun r => nth (r * cols + c) vals 0) (seq 0 rows))) (seq 0 cols)))
            else Some (l1 vals) in
          match weight_l1 with None => None | Some wl => Some (wl * m 0%nat + bias_bound l 2) end
      end
  | BatchNormalization => Some (scale_bound l 1 * m 0%nat + bias_bound l 2)
  | Mul => Some (m 0%nat * m 1%nat)
  | Add | Sub => Some (m 0%nat + m 1%nat)
  | Div =>
      let min_abs_b :=
        match weight_at l 1 with
        | None => None
        | Some w => match filter (fun v => if Rlt_dec 0 v then true else false) (map Rabs (flat w)) with
                    | [] => None
                    | v :: r => Some (fold_left Rmin r v)
                    end
        end in
      Some (m 0%nat / match min_abs_b with Some b => b | None => 1 end)
  | Relu | MaxPool | Max | Min | Clip | Cast | Reshape | Flatten | Squeeze | Unsqueeze | Tile | Gather | Resize | GridSample
  | Transpose | Slice | TopK | Expand | ReduceMean | AveragePool | Split | ReduceSum | Identity | Neg | Gelu | HardSwish
  | GlobalAveragePool | ReduceMax | GatherElements => Some (m 0%nat)
  | Concat => Some (max_list (map m (seq 0 (List.length (inputs (body l))))))
  | Shape | Tanh | Erf | Softmax | Sigmoid | Constant | Not | And | Equal | Greater | Less | ConstantOfShape | Sin | Cos | Range => Some 1
  | Log => Some (Rmax (m 0%nat) (ln alpha))
  | MatMul =>
      let dynamic := Some (m 0%nat * m 1%nat) in
      let left :=
        match weight_at l 0 with
        | Some w =>
            let vals := flat w in
            let d := dims w in
            if (List.length vals =? 0)%nat then dynamic
            else
              let n_cols := if (2 <=? List.length d)%nat then last d 1%nat else 1%nat in
              let n_rows := if (0 <? n_cols)%nat then (List.length vals / n_cols)%nat else 1%nat in
              let max_row_l1 :=
                if (0 <? n_rows)%nat && (0 <? n_cols)%nat
                then max_list (map (fun r => l1 (firstn n_cols (skipn (r * n_cols) vals))) (seq 0 n_rows))
                else max_abs vals in
              Some (max_row_l1 * m 1%nat)
        | None => dynamic
        end in
      match weight_at l 1 with
      | Some w =>
          let vals := flat w in
          let d := dims w in
          if (List.length vals =? 0)%nat then left
          else
            let n_out := if (2 <=? List.length d)%nat then last d 1%nat else 1%nat in
            let per_out := if (0 <? n_out)%nat then (List.length vals / n_out)%nat else 1%nat in
            let max_l1 :=
              if (0 <? n_out)%nat && (0 <? per_out)%nat
              then max_list (map (fun c => l1 (strided vals c n_out)) (seq 0 n_out))
              else max_abs vals in
            Some (max_l1 * m 0%nat)
      | None => left
      end
  | Pad => Some (Rmax (m 0%nat) (Rabs (m 2%nat)))
  | Where => Some (Rmax (m 1%nat) (m 2%nat))
  | Pow =>
      match weight_at l 1 with
      | Some t =>
          match flat t with
          | [e] =>
              if Rle_dec 1 e then Some (powf (m 0%nat) e)
              else if Rle_dec 0 e then Some (Rmax (m 0%nat) (powf (m 0%nat) e))
              else None
          | _ => None
          end
      | None => None
      end
  | Sqrt => Some (Rmax (m 0%nat) (sqrt (m 0%nat)))
  | ConvTranspose =>
      match weight_at l 1 with
      | None => None
      | Some w =>
          let d := dims w in
          let c_in := match d with [] => 1%nat | c :: _ => c end in
          let c_out := if (2 <=? List.length d)%nat then nth 1 d 0%nat else 1%nat in
          let vals := flat w in
          let kernel_elems := if (2 <? List.length d)%nat then prod (skipn 2 d) else 1%nat in
          if (List.length vals =? 0)%nat || (c_out =? 0)%nat then Some (m 0%nat)
          else if (kernel_elems =? 0)%nat then Some (m 0%nat)
          else
            let max_l1 := max_list (map (fun oc =>
              l1 (flat_map (fun ci => map (fun k => nth ((ci * c_out + oc) * kernel_elems + k) vals 0) (seq 0 kernel_elems)) (seq 0 c_in)))
              (seq 0 c_out)) in
            Some (max_l1 * m 0%nat + bias_bound l 2)
      end
  | Exp => let b := exp (m 0%nat) in if Rle_dec b f64_max then Some b else None
  | LeakyRelu =>
      let a := match slope (body l) with Some a => a | None => / 100 end in
      Some (Rmax (m 0%nat) (Rabs a * m 0%nat))
  | InstanceNormalization | GroupNormalization | LayerNormalization =>
      let eps := Rmax (match epsilon (body l) with Some e => e | None => / 100000 end) (/ 10 ^ 12) in
      Some (scale_bound l 1 * (2 * m 0%nat / sqrt eps) + bias_bound l 2)
  | ScatterND =>
      Some (Rmax (m 0%nat) (if (2 <? List.length (inputs (body l)))%nat then m 2%nat else m 0%nat))
  end.

(** the two overrides that need shapes: quantizer.rs:336-373, repeated at 1245-1282 *)
Definition layer_bound (shapes : string -> option (list nat)) (l : layer) (bounds : list (string * R)) (alpha : R) : option R :=
  match compute_layer_bound l bounds alpha with
  | None => None
  | Some bound =>
      Some match kind (body l), inputs (body l) with
      | ReduceSum, in_name :: _ =>
          let m_in := match map_get in_name bounds with Some b => b | None => 1 end in
          match shapes in_name, outputs (body l) with
          | Some in_shape, out_name :: _ =>
              let in_total := prod in_shape in
              let out_total := match shapes out_name with Some s => prod s | None => 1%nat end in
              let factor := Nat.max (in_total / Nat.max out_total 1)%nat 1 in
              m_in * INR factor
          | _, _ => bound
          end
      | MatMul, in0_name :: in1_name :: _ =>
          match map_get in0_name (weights l), map_get in1_name (weights l) with
          | None, None =>
              let m_in := match map_get in0_name bounds with Some b => b | None => 1 end in
              let m_b := match map_get in1_name bounds with Some b => b | None => 1 end in
              let k := Nat.max match shapes in0_name with Some s => last s 1%nat | None => 1%nat end 1 in
              m_in * m_b * INR k
          | _, _ => bound
          end
      | _, _ => bound
      end
  end.

(** [x.ceil() as usize] *)
Definition ceil_nat (x : R) : nat := Z.to_nat (- Int_part (- x)).
(** quantizer.rs:1907-1913 compute_n_bits *)
Definition compute_n_bits (alpha bound : R) : nat :=
  let val := Rabs (alpha * bound) in
  if Rle_dec val 1 then 2%nat else (ceil_nat (ln val / ln 2) + 1)%nat.

(** quantizer.rs:1306-1317: the bounds of the outputs of a layer *)
Definition output_bounds (l : layer) (bound : R) : list (string * R) :=
  match kind (body l) with
  | TopK => match outputs (body l) with
            | values_name :: indices_name :: _ => [(indices_name, 1); (values_name, bound)]
            | [values_name] => [(values_name, bound)]
            | [] => []
            end
  | _ => rev (map (fun o => (o, bound)) (outputs (body l)))
  end.
(** quantizer.rs:1229-1321 compute_bounds; [layers] in topological order.  The bounds of the
    tensors are returned too. *)
Fixpoint bounds_loop (alpha : R) (shapes : string -> option (list nat)) (layers : list layer)
    (bounds : list (string * R)) (n_bits : list (string * nat)) : option (list (string * R) * list (string * nat)) :=
  match layers with
  | [] => Some (bounds, n_bits)
  | l :: rest =>
      match layer_bound shapes l bounds alpha with
      | None => None
      | Some bound =>
          let next := bounds_loop alpha shapes rest (output_bounds l bound ++ bounds)%list in
          if needs_rescale (kind (body l)) || is_range_check_op (kind (body l)) then
            if Rlt_dec (f64_max / alpha) bound then None
            else next ((name l, compute_n_bits alpha bound) :: n_bits)
          else next n_bits
      end
  end.
Definition compute_bounds (alpha : R) (shapes : string -> option (list nat)) (input_names : list string) (layers : list layer) :=
  bounds_loop alpha shapes layers (rev (map (fun s => (s, 1)) input_names)) [].

(** quantizer.rs:319-388 compute_max_bound_inner: after a layer that is rescaled, the bound is 1 *)
Fixpoint max_bound_loop (shapes : string -> option (list nat)) (layers : list layer)
    (bounds : list (string * R)) (max_bound : R) : option R :=
  match layers with
  | [] => Some max_bound
  | l :: rest =>
      match layer_bound shapes l bounds (2 ^ 18) with
      | None => None
      | Some bound =>
          let max_bound := if needs_rescale (kind (body l)) then Rmax max_bound bound else max_bound in
          let post := if needs_rescale (kind (body l)) then 1 else bound in
          max_bound_loop shapes rest (rev (map (fun o => (o, post)) (outputs (body l))) ++ bounds)%list max_bound
      end
  end.
Definition compute_max_bound (shapes : string -> option (list nat)) (input_names : list string) (layers : list layer) : option R :=
  max_bound_loop shapes layers (rev (map (fun s => (s, 1)) input_names)) 1.
(** quantizer.rs:56-63 max_safe_exponent *)
Definition max_safe_exponent (n_bits : nat) (max_bound : R) : nat :=
  let log2_accum := if Rlt_dec 1 max_bound then ceil_nat (ln max_bound / ln 2) else 0%nat in
  ((n_bits - (log2_accum + 1)) / 2)%nat.

(** quantizer.rs:186-290 fold_batchnorm_params, on the four parameter vectors: the factors and
    the summands; None on a length mismatch and on a variance that is not positive *)
Definition fold_batchnorm (eps : R) (scale bias mean var : list R) : option (list R * list R) :=
  let c := List.length scale in
  if negb ((List.length bias =? c)%nat && (List.length mean =? c)%nat && (List.length var =? c)%nat) then None
  else if forallb (fun v => if Rlt_dec 0 (v + eps) then true else false) var then
    let mul := map (fun i => nth i scale 0 / sqrt (nth i var 0 + eps)) (seq 0 c) in
    let add := map (fun i => nth i bias 0 - nth i mean 0 * nth i mul 0) (seq 0 c) in
    Some (mul, add)
  else None.
(** quantizer.rs:302-317 rewrite_pow_sqrt: whether a Pow becomes a Sqrt *)
Definition becomes_sqrt (exponent : list R) : bool :=
  match exponent with [e] => if Rlt_dec (Rabs (e - 1 / 2)) (/ 10 ^ 9) then true else false | _ => false end.
