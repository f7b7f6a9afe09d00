(** The operators of an ONNX model over the reals, entry by entry: which real numbers can be
    entries of the outputs of a node, given the tensors it reads.  Broadcasting and the positions
    of the entries do not matter for the magnitude of the values and are left open: an operator
    applied elementwise may combine any entry of one operand with any entry of the other. *)
From Coq Require Import List Arith Bool Reals String.
From Verif Require Import Spec.Shapes Spec.Tensors.
Import ListNotations.
Local Open Scope nat_scope.
Local Open Scope R_scope.

Inductive op :=
  | Conv | Gemm | MatMul | ConvTranspose | BatchNormalization
  | Mul | Add | Sub | Div | Neg | Pow | Sqrt | Exp | Log | Sin | Cos
  | Relu | LeakyRelu | Clip | Sigmoid | Tanh | Erf | Gelu | HardSwish | Softmax
  | MaxPool | AveragePool | GlobalAveragePool | Max | Min
  | ReduceMean | ReduceSum | ReduceMax | TopK
  | Cast | Identity | Reshape | Flatten | Squeeze | Unsqueeze | Tile | Gather | GatherElements | Resize | GridSample
  | Transpose | Slice | Concat | Expand | Pad | Split | Where | ScatterND
  | InstanceNormalization | GroupNormalization | LayerNormalization
  | Not | And | Equal | Greater | Less | Constant | ConstantOfShape | Range | Shape.

(** A node: its operator, the names of what it reads and writes, and the attributes that matter. *)
Record node := { kind : op; inputs : list string; outputs : list string;
  trans_b : bool; slope : option R; epsilon : option R }.
(** The tensors of a run of the model. *)
Definition valuation := string -> option (tensor R).
Definition arg (env : valuation) (n : node) (i : nat) : option (tensor R) :=
  match nth_error (inputs n) i with Some s => env s | None => None end.
Definition values (env : valuation) (n : node) (i : nat) : list R :=
  match arg env n i with Some t => flat t | None => [] end.

Definition sum (l : list R) : R := fold_right Rplus 0 l.
Definition dot (ws xs : list R) : R := sum (map2 Rmult ws xs).
Definition mean (l : list R) : R := sum l / INR (List.length l).
Definition variance (l : list R) : R := mean (map (fun x => (x - mean l) ^ 2) l).
(** An entry of an optional operand, [d] if the operand is absent. *)
Definition optional (env : valuation) (n : node) (i : nat) (d v : R) : Prop :=
  match arg env n i with Some t => In v (flat t) | None => v = d end.
(** Row [r] of a matrix, or of a batch of matrices, and column [c] of matrix [b]. *)
Definition row (t : tensor R) (r : nat) : list R :=
  let k := last (dims t) 1%nat in firstn k (skipn (r * k) (flat t)).
Definition column (t : tensor R) (b c : nat) : list R :=
  match rev (dims t) with
  | n :: k :: _ => map (fun i => nth ((b * k + i) * n + c)%nat (flat t) 0) (seq 0 k)
  | _ => flat t
  end.
Definition columns (t : tensor R) : nat := match dims t with [_] => 1%nat | d => last d 1%nat end.
Definition rows (t : tensor R) : nat := match rev (dims t) with _ :: k :: _ => k | [k] => k | [] => 1%nat end.
(** The kernel of output channel [oc], and of output channel [oc] of a transposed convolution. *)
Definition kernel (w : tensor R) (oc : nat) : list R :=
  let per := prod (tl (dims w)) in firstn per (skipn (oc * per) (flat w)).
Definition kernel_transposed (w : tensor R) (oc : nat) : list R :=
  match dims w with
  | ci :: co :: ks => flat_map (fun i => firstn (prod ks) (skipn ((i * co + oc) * prod ks) (flat w))) (seq 0 ci)
  | _ => []
  end.
(** Products of kernels with inputs; padding contributes zeros. *)
Definition weighted (ws : list R) (x0 : list R) (v : R) : Prop :=
  exists xs, List.length xs = List.length ws /\ Forall (fun x => x = 0 \/ In x x0) xs /\ v = dot ws xs.
(** Averages with non-negative weights; a sum of weights below 1 stands for padding. *)
Definition averaged (x0 : list R) (v : R) : Prop :=
  exists ws xs, List.length xs = List.length ws /\ Forall (fun x => In x x0) xs /\
    Forall (fun w => 0 <= w) ws /\ sum ws <= 1 /\ v = dot ws xs.
Definition normalized (env : valuation) (n : node) (v : R) : Prop :=
  exists lane x g b, In x lane /\ Forall (fun y => In y (values env n 0)) lane /\
    optional env n 1 1 g /\ optional env n 2 0 b /\
    let eps := match epsilon n with Some e => e | None => / 100000 end in
    0 < variance lane + eps /\
    v = g * ((x - mean lane) / sqrt (variance lane + eps)) + b.

(** [entry env n j v]: [v] can be an entry of output [j] of node [n]. *)
Definition entry (env : valuation) (n : node) (j : nat) (v : R) : Prop :=
  let x0 := values env n 0 in
  let x1 := values env n 1 in
  let elementwise (f : R -> R) := exists x, In x x0 /\ v = f x in
  let binary (f : R -> R -> R) := exists a b, In a x0 /\ In b x1 /\ v = f a b in
  match kind n with
  | Conv => exists w oc b d, arg env n 1 = Some w /\ (oc < hd 1%nat (dims w))%nat /\
      optional env n 2 0 b /\ weighted (kernel w oc) x0 d /\ v = d + b
  | ConvTranspose => exists w oc b d, arg env n 1 = Some w /\ (oc < nth 1 (dims w) 1%nat)%nat /\
      optional env n 2 0 b /\ weighted (kernel_transposed w oc) x0 d /\ v = d + b
  | Gemm => exists w c b xs, arg env n 1 = Some w /\ List.length (dims w) = 2%nat /\
      (c < if trans_b n then rows w else columns w)%nat /\
      let ws := if trans_b n then row w c else column w 0 c in
      List.length xs = List.length ws /\ Forall (fun x => In x x0) xs /\ optional env n 2 0 b /\ v = dot ws xs + b
  | MatMul => exists a b r m c, arg env n 0 = Some a /\ arg env n 1 = Some b /\
      dims a <> [] /\ dims b <> [] /\ last (dims a) 1%nat = rows b /\
      (r * last (dims a) 1%nat < List.length (flat a))%nat /\ (c < columns b)%nat /\ (m * (rows b * columns b) < List.length (flat b))%nat /\
      v = dot (row a r) (column b m c)
  | BatchNormalization => exists x g b, In x x0 /\ optional env n 1 1 g /\ optional env n 2 0 b /\ v = g * x + b
  | Mul => binary Rmult
  | Add => binary Rplus
  | Sub => binary Rminus
  | Div => exists a b, In a x0 /\ In b x1 /\ b <> 0 /\ v = a / b
  | Pow => exists x e, In x x0 /\ In e x1 /\
      ((0 < x /\ v = Rpower x e) \/ (exists k, e = INR k /\ v = x ^ k) \/ (x = 0 /\ 0 < e /\ v = 0))
  | Neg => elementwise Ropp
  | Sqrt => exists x, In x x0 /\ 0 <= x /\ v = sqrt x
  | Exp => elementwise exp
  | Log => exists x, In x x0 /\ 0 < x /\ v = ln x
  | Sin => elementwise sin
  | Cos => elementwise cos
  | Relu => elementwise (Rmax 0)
  | LeakyRelu => let a := match slope n with Some a => a | None => / 100 end in
      exists x, In x x0 /\ ((0 <= x /\ v = x) \/ (x < 0 /\ v = a * x))
  | Clip => exists x y, In x x0 /\
      y = match values env n 1 with lo :: _ => Rmax lo x | [] => x end /\
      v = match values env n 2 with hi :: _ => Rmin hi y | [] => y end
  | Sigmoid => elementwise (fun x => / (1 + exp (- x)))
  | Tanh => elementwise (fun x => (exp x - exp (- x)) / (exp x + exp (- x)))
  | Erf => -1 <= v <= 1
  | Gelu => exists x e, In x x0 /\ -1 <= e <= 1 /\ v = x / 2 * (1 + e)
  | HardSwish => elementwise (fun x => x * (Rmin 6 (Rmax 0 (x + 3)) / 6))
  | Softmax => exists lane x, In x lane /\ v = exp x / sum (map exp lane)
  | Max | Min => exists i, In v (values env n i)
  | AveragePool => exists xs k, (List.length xs <= k)%nat /\ (0 < k)%nat /\ Forall (fun x => In x x0) xs /\ v = sum xs / INR k
  | GlobalAveragePool | ReduceMean => exists xs, xs <> [] /\ Forall (fun x => In x x0) xs /\ v = mean xs
  | ReduceSum => exists xs x y, arg env n 0 = Some x /\ match outputs n with o :: _ => env o | [] => None end = Some y /\
      Forall (fun z => In z (flat x)) xs /\ (List.length xs * prod (dims y) = prod (dims x))%nat /\ v = sum xs
  | TopK => match j with 0%nat => In v x0 | _ => exists i, v = INR i /\ (i < List.length x0)%nat end
  | MaxPool | ReduceMax | Identity | Reshape | Flatten | Squeeze | Unsqueeze | Tile | Gather | GatherElements
  | Transpose | Slice | Expand | Split => In v x0
  | Cast => exists x, In x x0 /\ (v = x \/ (0 <= v <= x) \/ (x <= v <= 0) \/ (x <> 0 /\ v = 1))
  | Resize | GridSample => averaged x0 v
  | Concat => exists i, (i < List.length (inputs n))%nat /\ In v (values env n i)
  | Pad => In v x0 \/ optional env n 2 0 v
  | Where => In v x1 \/ In v (values env n 2)
  | ScatterND => In v x0 \/ In v (values env n 2)
  | InstanceNormalization | GroupNormalization | LayerNormalization => normalized env n v
  | Not | And | Equal | Greater | Less => v = 0 \/ v = 1
  | Constant | ConstantOfShape | Range => True
  | Shape => exists i, v = INR i
  end.

(** [env] is a run of the nodes on inputs in [-1, 1]. *)
Definition runs (input_names : list string) (nodes : list node) (env : valuation) : Prop :=
  (forall s t, In s input_names -> env s = Some t -> Forall (fun x => Rabs x <= 1) (flat t)) /\
  (forall n j s t, In n nodes -> nth_error (outputs n) j = Some s -> env s = Some t -> Forall (entry env n j) (flat t)) /\
  (forall s t, env s = Some t -> well_formed t).
(** Every name a node reads is an input of the model, an output of an earlier node, one of the
    node's own constants, or the name of an absent operand; the constants are part of the run. *)
Fixpoint ordered (env : valuation) (known : list string) (nodes : list (node * list (string * tensor R))) : Prop :=
  match nodes with
  | [] => True
  | (n, consts) :: r =>
      Forall (fun s => In s known \/ In s (map fst consts) \/ env s = None) (inputs n) /\
      Forall (fun c => env (fst c) = Some (snd c)) consts /\
      ordered env (known ++ outputs n) r
  end.

(** *** Where the bound analysis is right.  [shapes] are the shapes it is given. *)
(** All entries of output [j]. *)
Definition each_output (env : valuation) (n : node) (P : nat -> R -> Prop) : Prop :=
  forall j s t, nth_error (outputs n) j = Some s -> env s = Some t -> Forall (P j) (flat t).
(** Every output value is at most as large as some value of the first operand. *)
Definition dominated (env : valuation) (n : node) : Prop :=
  each_output env n (fun _ v => exists x, In x (values env n 0) /\ Rabs v <= Rabs x).
(** Operand [i] is absent or one of the node's constants. *)
Definition constant_or_absent (env : valuation) (n : node) (consts : list (string * tensor R)) (i : nat) : Prop :=
  arg env n i <> None -> exists s, nth_error (inputs n) i = Some s /\ In s (map fst consts).
Definition analysable (alpha : R) (shapes : string -> option (list nat)) (env : valuation) (n : node) (consts : list (string * tensor R)) : Prop :=
  match kind n with
  (* not compared with the other operands, the limits, or 1 *)
  | Max | Min | Clip | Cast => dominated env n
  | Constant | ConstantOfShape | Range | Shape => each_output env n (fun _ v => Rabs v <= 1)
  | TopK => each_output env n (fun j v => (0 < j)%nat -> Rabs v <= 1) /\ (List.length (outputs n) <= 2)%nat
  (* logarithms of values below the resolution *)
  | Log => Forall (fun x => / alpha <= x) (values env n 0)
  (* only constant operands are looked at *)
  | Div => exists s w, nth_error (inputs n) 1 = Some s /\ In (s, w) consts
  | Conv | BatchNormalization => constant_or_absent env n consts 1 /\ constant_or_absent env n consts 2
  | Gemm => constant_or_absent env n consts 2
  | ConvTranspose => constant_or_absent env n consts 2 /\ values env n 1 <> []
  | InstanceNormalization | GroupNormalization | LayerNormalization =>
      constant_or_absent env n consts 1 /\ constant_or_absent env n consts 2 /\
      match epsilon n with Some e => / 10 ^ 12 <= e | None => True end
  (* a constant vector on the left; sums whose length is not known *)
  | MatMul =>
      (forall s w, nth_error (inputs n) 0 = Some s -> In (s, w) consts ->
        constant_or_absent env n consts 1 \/ (2 <= List.length (dims w))%nat) /\
      match nth_error (inputs n) 0 with
      | Some s => In s (map fst consts) \/ option_map (fun d => last d 1%nat) (shapes s) = option_map (fun t => last (dims t) 1%nat) (env s)
      | None => True
      end
  | ReduceSum =>
      match inputs n, outputs n with
      | i :: _, o :: r => r = [] /\ ~ In i (map fst consts) /\ forall x y, env i = Some x -> env o = Some y ->
          exists si so, shapes i = Some si /\ shapes o = Some so /\ (0 < prod so)%nat /\ (prod si * prod (dims y) = prod so * prod (dims x))%nat
      | _, _ => True
      end
  | _ => True
  end.
(** [k] bits hold every value of the node at scale [alpha] (the indices of TopK aside). *)
Definition bits_hold (alpha : R) (env : valuation) (n : node) (k : nat) : Prop :=
  each_output env n (fun j v => (kind n = TopK -> j = 0%nat) -> Rabs (alpha * v) <= 2 ^ (k - 1)).
