#!/usr/bin/env python3
"""Writes /verif/properties.jsonl (one JSON object per line)."""
import json
P = []
def p(i, title, statement, quantifier, why, anchors):
    P.append(dict(id=i, title=title, statement=statement, quantifier=quantifier, why_tests_cant=why, anchors=anchors))

U="src/tensor/utils.rs"; R="src/tensor/raw_tensor.rs"; RC="src/tensor/rc_tensor.rs"; V="src/tensor/tensor_view.rs"
TL="src/tensor/tensor_like.rs"; E="src/tensor/functional/element_wise_ops.rs"; M="src/tensor/functional/misc.rs"
J="src/tensor/autograd/jvp.rs"; L="src/nn/linear.rs"; F="src/nn/feed_foward.rs"; S="src/optim/sgd.rs"

p("C01","In-range get reads the row-major element",
  "For a tensor created by RawTensor::new/RcTensor::new from (array, shape), get(index) with one coordinate per dimension, each smaller than its dimension, returns Ok of the array element at the row-major position of index.",
  "all shapes (any rank, any dimensions), all arrays accepted by the constructor, all in-range indices",
  "Rank and dimensions are unbounded; the tests read a handful of cells of 2x2x2, 3x3 and 3x3x4 tensors.",
  [f"{U}:global_index", f"{R}:RawTensor::get", f"{RC}:RcTensor::get"])
p("C02","get follows numpy index broadcasting, and rejects everything else with Err",
  "For a tensor with no zero-sized dimension get never panics on any index: extra leading coordinates are ignored, the coordinate of a size-1 dimension is ignored, an index shorter than the shape is accepted exactly when the missing leading dimensions are all of size 1; it returns Err exactly when a coordinate of a dimension of size >= 2 is out of range or a missing leading dimension is of size >= 2.",
  "all shapes without zero dimensions, all index vectors of any length and any values",
  "The doc tests show three broadcast reads; the claim is an if-and-only-if over all indices.",
  [f"{U}:global_index", f"{R}:RawTensor::get"])
p("C03","get returns a Result for every tensor, including empty ones",
  "get never panics, whatever the tensor's shape (zero-sized dimensions included) and whatever the index.",
  "all tensors the constructor accepts, all indices",
  "The failing inputs (an index shorter than the shape of an empty tensor) are outside what the tests sample.",
  [f"{U}:global_index", f"{R}:RawTensor::get"])
p("C04","Multi-indices and storage positions are in bijection",
  "Converting a storage position to a multi-index and back is the identity, and so is converting an in-range multi-index to its storage position and back; hence distinct in-range indices address distinct elements and every element is addressed. A position past the end is reported as an error.",
  "all shapes without zero dimensions, all positions and all in-range indices",
  "The unit test sweeps three shapes; the law is for all shapes.",
  [f"{U}:tensor_index", f"{U}:tensor_index_inplace", f"{U}:global_index"])
p("C05","Index iteration visits every index once, in row-major order",
  "iter_indices() on a tensor yields exactly the in-range indices, each once, in row-major (lexicographic) order, and then ends; a rank-0 tensor yields the single empty index.",
  "all shapes without zero dimensions",
  "Iteration length is the product of the dimensions; tests check [2,2,2] and [2,3,2].",
  [f"{U}:IndexIterator", f"{U}:increment_index", f"{U}:reset_trailing_indices", f"{TL}:iter_indices"])
p("C06","Index iteration over an empty tensor yields nothing",
  "iter_indices() on a tensor with a zero-sized dimension yields no index and does not panic.",
  "all shapes with at least one zero dimension",
  "No test builds an empty tensor.",
  [f"{U}:IndexIterator", f"{U}:increment_index"])
p("C07","The constructor accepts exactly matching lengths and stores the data unchanged",
  "new(array, shape) succeeds if and only if array.len() is the product of shape, and the result has exactly that array and shape, no gradient and no graph history; new_with_filler(shape, x) always succeeds and holds product(shape) copies of x; scalar(x) has shape [] and is_scalar holds for it and exactly for tensors of rank 0 with one element.",
  "all arrays, shapes and fill values",
  "Equality of a product of arbitrarily many dimensions with a length.",
  [f"{R}:RawTensor::new", f"{R}:new_with_filler", f"{R}:scalar", f"{R}:is_scalar"])
p("C08","Nested vectors convert to the tensor with the same elements",
  "From<nested Vec/array> succeeds if and only if the nesting is rectangular and no level is empty; the shape lists the lengths from the outside in, and get at [i1,...,in] is the element at value[i1]...[in].",
  "all nested vectors of any depth and any lengths",
  "Depth and lengths unbounded; tests convert depth 1-3 literals.",
  [f"{R}:From<Vec<U>>", f"{R}:From<[U;N]>", f"{R}:From<T>", f"{RC}:From"])
p("C09","Index arithmetic never overflows the machine word for a tensor that was built",
  "With 64-bit checked arithmetic, for every tensor with no zero dimension that the constructor accepted (its length fits in a word), computing the position of any index either succeeds with the unbounded-arithmetic answer or reports Err, and never overflows; with wrapping arithmetic the answer is the same.",
  "all word sizes, all accepted tensors without zero dimensions, all indices",
  "Overflow needs shapes whose product is near 2^64.",
  [f"{U}:global_index", f"{R}:RawTensor::new"])
p("C10","The constructor's length check cannot be fooled by wrap-around",
  "Even with wrapping (release-profile) arithmetic, new(array, shape) succeeds only if array.len() is the mathematical product of shape.",
  "all shapes with machine-word dimensions",
  "The witnesses have dimensions like 2^32.",
  [f"{R}:RawTensor::new"])
p("C11","A view reads the selected window of its tensor",
  "view/slice with one range [start,end) per dimension, each end <= dimension, succeeds, has shape end-start, and get/[] at an in-range view index returns the tensor's element at index+start; the view is refused (panic) exactly when the number of ranges differs from the rank or some end exceeds its dimension.",
  "all tensors, all lists of ranges, all in-range view indices",
  "Ranges and shapes are unbounded; tests check a few literals.",
  [f"{V}:TensorView::new", f"{V}:TensorView::get", f"{V}:Index", f"{R}:slice", f"{RC}:view", f"{U}:global_index"])
p("C12","Materialising, summing and comparing a view agree with its elements",
  "For a non-empty view, to_tensor() is the tensor of the view's shape holding the view's elements in row-major order, count() is its length, sum() is the left-to-right sum of these elements, deep_clone() has the same elements, and a view equals another tensor-like if and only if shapes and all elements agree.",
  "all tensors and all non-empty windows",
  "Any window of any tensor.",
  [f"{V}:to_tensor", f"{V}:sum", f"{V}:PartialEq", f"{U}:ElementIterator", f"{TL}:deep_clone"])
p("C13","A view's get reports an out-of-range index as Err",
  "TensorView::get returns Err for an index outside the view, as its Result type says, and does not panic.",
  "all views and all indices",
  "For every view there is such an index; the tests never read outside.",
  [f"{V}:TensorView::get"])
p("C14","Slicing a view selects a window of that view",
  "view.slice(ranges) is relative to the view: its element at index is the view's element at index+start, and it can never expose elements outside the view.",
  "all views and all ranges",
  "Composition over all windows.",
  [f"{V}:slice"])
p("C15","Reshaping a view keeps its elements in row-major order",
  "view.reshape(shape) with the same number of elements yields a view whose row-major element sequence is that of the original view.",
  "all views and all shapes of the same size",
  "Any pair of shapes of the same size.",
  [f"{V}:reshape", f"{V}:TensorView::get"])
p("C16","A view with a size-1 dimension broadcasts like a tensor of that shape",
  "Adding a view to a tensor gives the same result as adding the materialised view.",
  "all tensors and views with broadcastable shapes",
  "Any window, any broadcast.",
  [f"{U}:global_index", f"{E}:generic_binop_raw"])
p("C17","Addition is numpy broadcasting addition",
  "For tensors without zero dimensions, a + b succeeds if and only if the shapes are broadcast-compatible (right-aligned, equal or 1); the result has the broadcast shape and its element at every index is a's plus b's element at that index with size-1 coordinates clamped to 0. Holds for RawTensor and RcTensor operands alike.",
  "all shapes and data",
  "All pairs of ranks/dimensions.",
  [f"{E}:add_raw", f"{E}:generic_binop_raw", f"{E}:max_shape", f"{TL}:broadcastable", f"{RC}:Add", f"{R}:Add"])
p("C18","Addition is commutative and associative up to the element type, and zero is neutral",
  "If element addition is commutative then a+b = b+a (same shape, same data, or both refused); if it is associative then (a+b)+c = a+(b+c) whenever either side is defined and no dimension is zero; adding a scalar zero leaves a unchanged.",
  "all shapes and data, all element types with the law",
  "Universally quantified algebra over shapes.",
  [f"{E}:add_raw", f"{E}:max_shape"])
p("C19","Broadcasting handles zero-sized dimensions as numpy does",
  "Adding two broadcast-compatible tensors one of which has a zero-sized dimension yields the empty tensor of the broadcast shape.",
  "all compatible shapes with a zero dimension",
  "No test uses empty tensors.",
  [f"{E}:max_shape", f"{E}:generic_binop_raw"])
p("C20","Negation and subtraction",
  "-a has a's shape and negated elements; a-b is a+(-b) element-wise under broadcasting; a-a is all zeros and -(-a) is a when the element type is a ring.",
  "all shapes and data",
  "All shapes.",
  [f"{R}:Neg", f"{R}:Sub", f"{RC}:Neg", f"{RC}:Sub", f"{E}:generic_unary_op"])
p("C21","relu, tanh and abs act element by element and keep the shape",
  "For every tensor (empty ones included) relu/tanh/abs succeed, keep the shape, and apply the scalar function to each element in place.",
  "all shapes and data",
  "All shapes.",
  [f"{E}:relu", f"{E}:tanh", f"{E}:abs", f"{E}:generic_unary_op"])
p("C22","Multiplication: scalar scaling and same-shape element-wise product, otherwise refused",
  "a*b with a of rank 0 is b scaled (scalar on the left); with b of rank 0 it is a scaled (scalar on the right); with equal shapes and no zero dimension it is the element-wise product; in every other case it panics; the result always has as many elements as its shape says.",
  "all tensors",
  "All pairs of shapes.",
  [f"{R}:Mul", f"{TL}:left_scalar_multiplication", f"{TL}:right_scalar_multiplication", f"{M}:element_wise_multiplication", f"{RC}:Mul"])
p("C23","Scaling a view scales the view's elements",
  "scalar * view equals scalar * view.to_tensor(); in particular the result has as many elements as its shape says.",
  "all scalars and views",
  "Any window.",
  [f"{TL}:left_scalar_multiplication", f"{TL}:right_scalar_multiplication", f"{R}:Mul"])
p("C24","sum adds all elements once, in storage order",
  "sum() of a tensor is a scalar equal to zero plus the elements added left to right; for a commutative ring it does not depend on element order, sum(a+b)=sum a+sum b for equal shapes and sum(c*a)=c*sum a.",
  "all tensors",
  "All sizes.",
  [f"{R}:sum", f"{RC}:sum"])
p("C25","bmm is (batched) matrix multiplication",
  "For left [n,k] or [b,n,k] and right [k,m], bmm succeeds with shape [n,m] resp. [b,n,m] and element (b,)i,j equal to the left-to-right sum over t of left[(b,)i,t]*right[t,j] starting at zero; it is refused when the inner dimensions differ or right is not rank 2 or left has rank < 2. Operands may be views.",
  "all dimensions (zero included for the outer ones), all data",
  "All sizes.",
  [f"{M}:bmm_raw", f"{RC}:bmm_rc", f"{R}:bmm", f"{V}:bmm_rc"])
p("C26","bmm's result does not depend on the thread schedule",
  "Whatever order the spawned element tasks run in, bmm produces the same array, for every element type including floats, and every task's slot is written exactly once.",
  "all schedules of the spawned tasks, all operands",
  "Schedules are exponentially many and not controllable from a test.",
  [f"{M}:bmm_raw"])
p("C27","Matrix algebra laws",
  "Over a commutative ring of elements: (AB)C = A(BC), A(B+C) = AB+AC, (A+B)C = AC+BC, and multiplying by the identity matrix on either side leaves A unchanged.",
  "all conforming dimensions and data",
  "All sizes.",
  [f"{M}:bmm_raw"])
p("C28","bmm with left operand of rank above 3 is refused or correct",
  "bmm never returns an Ok tensor that is not the batched matrix product; for unsupported ranks it is refused.",
  "all ranks",
  "Rank 4 with leading 1s is not sampled.",
  [f"{M}:bmm_raw"])
p("C29","dot is the sum of element products",
  "dot(a,b) of equal shapes is a one-element tensor of shape [1] holding the left-to-right sum of products; it is refused when shapes differ; over a commutative ring dot(a,b)=dot(b,a).",
  "all tensors of equal shape",
  "All sizes.",
  [f"{M}:dot_raw", f"{M}:dot", f"{M}:dot_no_derivative"])
p("C30","dot with a view uses the view's elements",
  "raw.dot(&view) equals raw.dot(&view.to_tensor()).",
  "all views with the shape of raw",
  "Any window.",
  [f"{M}:dot_raw", f"{R}:dot"])
p("C31","backward computes the gradient",
  "For every program over f64-as-real tensors that builds a graph from leaves with +, -, neg, relu, tanh, abs, bmm (rank 2) and ends in sum() of a tensor, and no input of relu/abs is at its kink, loss.backward() succeeds and each leaf's accumulated gradient entry is the partial derivative of the loss value with respect to that leaf entry (leaves that do not influence the loss get none).",
  "all programs, shapes, broadcasts, sharing patterns (DAGs), leaves and entries",
  "A limit statement for every graph; numerical tests compare a few entries with a tolerance.",
  [f"{J}:compute_jvp", f"{RC}:backward", f"{E}:generic_binop_jvp", f"{E}:generic_unary_jvp", f"{E}:jvp_from_diagonal_broadcast", f"{E}:tanh_derivative_outer", f"{M}:bmm_jvp", f"{J}:ones"])
p("C32","Each vector-Jacobian product is exact",
  "Over any commutative ring, for add (with broadcasting), neg, abs, relu, tanh, bmm and dot the backward rule maps an incoming gradient matrix G to G times the operation's Jacobian at the recorded inputs, one row per row of G.",
  "all shapes, data, numbers of rows",
  "All sizes.",
  [f"{E}:generic_binop_jvp", f"{E}:generic_unary_jvp", f"{E}:tanh_derivative", f"{M}:bmm_jvp", f"{M}:dot_jvp", f"{J}:jvp_from_full_jacobians"])
p("C33","bmm's gradient is right for matrices of every size",
  "A.bmm(&B).sum().backward() gives A.grad[i,t] = sum_j B[t,j] and B.grad[t,j] = sum_i A[i,t] for all matrix sizes.",
  "all matrix sizes",
  "Needs gradient arrays of more than 32 elements; the tests stay below.",
  [f"{M}:SplitArrayWriter", f"{M}:bmm_jvp"])
p("C34","sum's gradient scales with what is done to the sum",
  "The gradient of f(x.sum()) with respect to x is f' times ones: in particular (-(x.sum())).backward() gives -1 everywhere.",
  "all tensors x and one-element graphs above the sum",
  "No test differentiates through a sum.",
  [f"{J}:ones", f"{RC}:sum"])
p("C35","Products are differentiated",
  "After (&a * &b).sum().backward(), a's gradient is b and b's gradient is a.",
  "all tensors",
  "No test differentiates through a product.",
  [f"{RC}:Mul", f"{R}:Mul"])
p("C36","Gradients accumulate additively over backward calls and uses",
  "backward adds its contribution to whatever gradient is stored: calling it n times without zero_grad gives n times the gradient; a tensor used in several places receives the sum over all uses; zero_grad forgets exactly the accumulated gradient of that tensor.",
  "all graphs, all call sequences",
  "All graphs and all numbers of calls.",
  [f"{R}:update_grad", f"{R}:zero_grad", f"{J}:compute_jvp", f"{RC}:backward"])
p("C37","Gradients have the shape of their tensor",
  "After any program of operations, backward and zero_grad calls, a stored gradient of a tensor that is not itself the result of sum() has exactly that tensor's shape and element count.",
  "all programs",
  "All graphs and broadcasts.",
  [f"{J}:compute_jvp", f"{R}:update_grad"])
p("C38","A stored gradient of a sum() result has its shape too",
  "The gradient of the result of x.sum() is a scalar: none before backward, and only what backward puts there.",
  "all tensors x",
  "Tests never look at the gradient of a sum.",
  [f"{R}:sum", f"{RC}:sum"])
p("C39","Operations never change existing tensors; backward only touches gradients of the root's ancestors",
  "No operation changes the data, shape or history of an existing tensor; forward operations change no existing gradient; backward changes only gradients of tensors from which the root was computed.",
  "all programs",
  "All histories.",
  [f"{RC}:RcTensor", f"{J}:compute_jvp", f"{R}:update_grad"])
p("C40","Every tensor a program can build is well formed",
  "After any sequence of API calls on tensors (constructors, arithmetic, bmm, dot, activations, sum, deep_clone, sgd steps), every live tensor's element count is the product of its shape and its history only refers to earlier tensors.",
  "all programs",
  "All histories.",
  [f"{R}:RawTensor", f"{RC}:RcTensor", f"{TL}:deep_clone"])
p("C41","backward always terminates, and fails only for stated reasons",
  "On every reachable graph backward terminates; it panics at once exactly when the root does not have one element or has no history; on graphs made of +, -, neg, relu, tanh over non-empty tensors it succeeds for every one-element root.",
  "all reachable graphs and roots",
  "All graphs.",
  [f"{RC}:backward", f"{J}:compute_jvp"])
p("C42","backward works for every one-element result of a differentiable operation",
  "If a one-element tensor was produced by bmm, abs or dot of leaves or of other results, backward succeeds.",
  "all graphs with a one-element root",
  "Root shapes other than those in the tests.",
  [f"{M}:bmm_jvp", f"{E}:abs_jvp", f"{M}:dot_jvp", f"{J}:jvp_from_full_jacobians"])
p("C43","bmm's backward is schedule-independent for exact arithmetic",
  "Whatever the interleaving of the writer tasks, channels and receiver tasks, the parallel gradient computation ends with the same arrays when element addition is commutative and associative; no message is lost, duplicated or applied out of bounds.",
  "all interleavings, all matrix sizes",
  "Schedules.",
  [f"{M}:SplitArrayWriter", f"{M}:bmm_jvp"])
p("C44","bmm's backward is deterministic for floats",
  "Two runs of backward on the same graph give bit-identical float gradients.",
  "all schedules",
  "Schedules.",
  [f"{M}:SplitArrayWriter::start_then_join"])
p("C45","bmm's backward does not deadlock",
  "With a pool of any number of worker threads >= 1, the writer/receiver tasks of the parallel gradient computation always finish: (a) when jobs start in submission order; (b) whatever order the pool starts them in.",
  "all pool sizes, matrix sizes and job orders",
  "Deadlock depends on pool size and job order.",
  [f"{M}:SplitArrayWriter::start_then_join", f"{M}:bmm_jvp"])
p("C46","Concurrent gradient updates are not lost",
  "If several threads call update_grad (through backward) on the same tensor at the same time, the final gradient is the sum of all contributions.",
  "all interleavings",
  "Race.",
  [f"{R}:update_grad"])
p("C47","Linear and Mlp compute what they say",
  "Linear.forward(x) is activation(x.bmm(W)+b); with no activation, for x [n,i], W [i,o], b [1,o] or [o], its element (r,c) is sum_t x[r,t]W[t,c] + b[c]; Mlp.forward is the left-to-right composition of its layers.",
  "all layer sizes, batches, layer counts, activations",
  "All sizes.",
  [f"{L}:forward", f"{L}:new", f"{F}:forward"])
p("C48","Parameter lists round-trip",
  "params() lists weights then bias for each layer in order; update_params(list) with 2 tensors per layer makes params() return exactly that list and changes nothing else; update_params(params()) changes nothing; with fewer tensors it panics.",
  "all networks and lists",
  "All lengths.",
  [f"{L}:params", f"{L}:update_params", f"{F}:params", f"{F}:update_params"])
p("C49","sgd_step is one step of gradient descent",
  "If every parameter has a gradient, sgd_step with a rank-0 step size replaces each parameter by one of the same shape with elements p - step*grad, leaves the old tensors untouched, keeps the order, and the new parameters have no gradient; if some parameter has no gradient it panics.",
  "all modules, step sizes, parameters, gradients",
  "All sizes.",
  [f"{S}:sgd_step"])
p("C50","sgd_step produces parameters without history",
  "After sgd_step the new parameters do not refer to earlier tensors, so memory and backward work per training iteration do not grow.",
  "all numbers of iterations",
  "Growth over unboundedly many iterations.",
  [f"{S}:sgd_step", f"{RC}:Sub"])
p("C51","Tensor equality compares shape and data only",
  "== on tensors is true exactly when shapes are equal and elements are pairwise equal; it is an equivalence when element equality is, and ignores gradients and history.",
  "all tensors",
  "All sizes.",
  [f"{R}:PartialEq", f"{RC}:RcTensor"])
p("C52","deep_clone isolates",
  "deep_clone() has the same data and shape, no gradient and no history; backward through it never changes the original's gradient.",
  "all programs",
  "All histories.",
  [f"{TL}:deep_clone"])
p("C53","A training step uses the true gradient",
  "For an Mlp with relu/tanh/no activations whose weight matrices and layer inputs have at most 32 entries, loss = (mlp.forward(x)-y).abs().sum(), backward followed by sgd_step(step) replaces each parameter entry by entry - step * (partial derivative of the loss), away from kinks; k rounds of the loop are k steps of gradient descent.",
  "all such networks, inputs, targets, and numbers of rounds",
  "Combines C31, C47, C49 for all sizes.",
  [f"{S}:sgd_step", f"{F}:forward", f"{RC}:backward"])
p("C54","Gradient tensors behave as plain values",
  "In every program that uses the results of grad() as values (no grad/update_grad/zero_grad/backward on a gradient tensor or on something computed from it by a history-recording operation), it cannot be observed that gradients are tensors with a history and a cell of their own: the program panics alike, or all data and gradients are those of the value semantics.",
  "all programs of that kind",
  "Quantifies over all programs; the extra tensors are invisible to a test of one program.",
  [f"{R}:update_grad", f"{RC}:grad", f"{RC}:backward", f"{J}:compute_jvp"])
p("C55","grad() is a snapshot",
  "grad() returns the gradient as it is at the time of the call; later backward, update_grad or zero_grad calls never change the data of the tensor it returned.",
  "all programs after the call",
  "All continuations.",
  [f"{RC}:grad", f"{R}:grad", f"{R}:update_grad"])
p("C56","Gradients carry no history",
  "The tensor returned by grad() has no history: it does not keep other tensors alive, and repeated backward passes use constant memory.",
  "all programs",
  "Memory over unboundedly many passes.",
  [f"{R}:update_grad", f"{RC}:Add"])
p("C57","Tensors never form reference cycles",
  "Without explicit update_grad calls the references between tensors (histories and gradient cells) are never cyclic, even when gradients of gradients are taken, so reference counting frees everything.",
  "all programs",
  "A cycle is a leak, which tests do not see; all programs.",
  [f"{R}:update_grad", f"{RC}:sum", f"{J}:compute_jvp", f"{RC}:RcTensor"])
p("C58","A small enough training step decreases the loss",
  "Where the loss is differentiable and its gradient is not zero, there is a positive bound such that every training step with a smaller positive step size decreases the loss the loop computes; to first order the change is -step * (sum of the squares of the partial derivatives). Matrices of at most 32 entries.",
  "all networks (layers, activations, parameters), inputs, targets and small enough step sizes",
  "A statement about limits over real parameters; tests run one network with one step size.",
  [f"{S}:sgd_step", "src/main.rs:main", f"{RC}:backward", f"{F}:forward"])
p("C59","Rounding errors of sum, dot and bmm are bounded",
  "With IEEE floats of any format, a finite result of sum over n elements differs from the exact sum by at most ((1+u)^(n-1)-1) times the sum of the magnitudes (u half a unit in the last place); for dot and for every entry of bmm and of bmm's gradients by at most ((1+u)^k-1) times the magnitudes of the k products plus k(1+u)^(k-1) half smallest numbers. Sums of bounded magnitude do not overflow.",
  "all formats (f32, f64), all tensors, all schedules of the backward pass",
  "Bounds over all float inputs and all schedules; tests compare a few exact results.",
  [f"{R}:sum", f"{M}:dot_raw", f"{M}:bmm_raw", f"{M}:bmm_jvp"])
p("C60","Training never panics",
  "For every network of Linear layers with the library's activations whose shapes fit (any sizes, any number of layers), every batch size >= 1, every step size, every list of batches and every arithmetic (NaN, infinity and overflow included), the loop forward, (res - y).abs().sum(), backward, sgd_step runs without panic; the parameters keep their shapes. In particular main.rs runs to its end for all numbers its generator can draw.",
  "all networks, sizes, element types and values, batches and numbers of rounds",
  "Tests run one network for a fixed number of rounds from one seed.",
  ["src/main.rs:main", f"{F}:Mlp::forward", f"{S}:sgd_step", f"{RC}:backward"])
p("C61","A panic leaves the tensors as they were",
  "If a call panics and the panic is caught (or another thread goes on), no tensor and no gradient has changed; later calls work as before.",
  "all programs, all calls, any number of caught panics",
  "Needs every panic in every program; the tests contain no caught panic.",
  [f"{R}:update_grad", f"{J}:Derivative::compute_jvp", f"{RC}:backward"])
p("C62","The guarantees hold for the whole public interface",
  "Programs may call every public function on RcTensors, RawTensors and views, and mix them: no call changes a value the program holds, only update_grad, zero_grad and backward change gradients, programs end, histories have no cycles, and every tensor is well formed and equal to what its history evaluates to.",
  "all programs over the public interface, any element type",
  "Needs every sequence of calls over three kinds of values; the tests hardly use RawTensors and views together with gradients.",
  [f"{R}:RawTensor", f"{RC}:RcTensor", f"{V}:TensorView", f"{TL}:TensorLike"])
p("C63","Gradients do not depend on which copy of a tensor is used",
  "A tensor gets the same gradient whether the computation uses it directly, through &*x, or through a copy of it.",
  "all histories that differ in how often a tensor was copied",
  "Needs a pair of computations of every size; the tests never use &*x in a computation with backward.",
  [f"{R}:Clone for RawTensor", f"{RC}:bmm_rc", f"{R}:to_tensor", f"{J}:Derivative::compute_jvp"])
p("C64","backward does work proportional to the size of the graph",
  "The number of gradient updates a backward pass makes is at most a constant times the number of tensors.",
  "all histories",
  "Needs graphs of every size; the tests use graphs of a handful of tensors, where the difference does not show.",
  [f"{J}:Derivative::compute_jvp", f"{RC}:backward"])
p("C65","backward needs bounded stack",
  "The calls of compute_jvp nest to a depth that does not depend on how much was computed before.",
  "all histories, any number of training rounds",
  "A stack overflow needs histories of tens of thousands of operations; no test is that long.",
  [f"{J}:Derivative::compute_jvp", f"{RC}:backward", f"{S}:sgd_step"])
p("C66","Control flow does not depend on the data",
  "Two programs that make the same calls with the same shapes panic for the same reason, or end in the same variables, shapes, histories and presence of gradients, whatever their data and element types are; more generally every relation that the arithmetic respects is respected by all values and gradients.",
  "all programs, all data, all pairs of element types, all relations",
  "Needs pairs of runs on arbitrary data; a test compares one run with one expected result.",
  [f"{U}:global_index", f"{E}:generic_unary_op", f"{M}:bmm_raw", f"{E}:jvp_from_diagonal_broadcast", f"{J}:Derivative::compute_jvp", "src/main.rs:main"])
p("C67","Wrapping integers are right modulo 2^n",
  "In the release profile, with any integer element type, every value and every gradient is the exact one modulo 2^n; where the exact one fits it is the result, even if intermediate results did not fit.",
  "all integer types, all programs without abs, relu and tanh (which integers do not have)",
  "Overflow of intermediate results in sums, products and gradients is hardly reachable by small examples, and tests run in the dev profile.",
  ["src/tensor/numeric.rs:numeric_impl", f"{E}:generic_unary_op", f"{M}:bmm_raw", f"{J}:Derivative::compute_jvp"])
p("C68","Checked integers overflow only where a result does not fit",
  "In the dev profile, a program on integers panics with an overflow only if one of the values it asks for does not fit its type, and never gives a wrong value.",
  "all integer types, all programs without abs, relu and tanh",
  "Depends on the order of all intermediate operations; the tests use small positive numbers.",
  ["src/tensor/numeric.rs:numeric_impl", f"{RC}:Sub for &RcTensor", f"{M}:dot", f"{M}:bmm_raw"])
p("C69","Floats compute exactly on whole numbers",
  "A program on whole numbers of an IEEE format with p bits (without tanh) computes all values and gradients exactly, if the run on magnitudes stays within 2^p.",
  "all binary formats, all programs, all whole inputs",
  "Tests check such results for a few inputs; exactness of every intermediate operation for all programs needs a proof.",
  ["src/tensor/numeric.rs:numeric_impl", f"{E}:generic_unary_op", f"{M}:bmm_raw", f"{J}:Derivative::compute_jvp"])
p("C70","Reference counts are exact and nothing in use is destroyed",
  "At every point of a program the strong count of every tensor is the number of references to it from variables in scope and from tensors not yet destroyed; what a variable can reach is never destroyed; destroying the rest changes no result and no panic.",
  "all programs of calls, clones and ends of variables, all data",
  "When a tensor is destroyed cannot be seen in a test without instrumentation; the tests keep all variables until the end.",
  [f"{RC}:RcTensor", f"{R}:RawTensor", f"{J}:Derivative", f"{RC}:update_grad", f"{RC}:zero_grad"])
p("C71","Everything no longer used is destroyed",
  "A tensor is alive exactly if a variable in scope leads to it; when all variables have ended, nothing is left.",
  "all programs of calls, clones and ends of variables, all data",
  "A leak does not change any result, so no test sees it.",
  [f"{RC}:RcTensor", f"{RC}:update_grad", f"{RC}:backward"])
p("C72","Destroying tensors needs bounded stack",
  "The destructors nest to a depth that does not depend on the program.",
  "all programs of calls, clones and ends of variables",
  "A stack overflow in drop needs histories of tens of thousands of operations; no test is that long.",
  [f"{RC}:RcTensor", f"{J}:Derivative"])
p("C73","Single elements are read and written where they should be",
  "set writes exactly the element that get reads at the same index and nothing else; indexing with [] panics exactly where get reports an error; elem, get_first_elem, count, same_shape and broadcastable say what their names say, for tensors and views.",
  "all shapes, data, indices and windows",
  "set is only used inside the library, at indices in range; a write that also touched another element or took another index for it would only show for particular shapes.",
  [f"{R}:set", f"{R}:Index for RawTensor", f"{TL}:elem", f"{TL}:get_first_elem", f"{TL}:same_shape", f"{TL}:broadcastable", f"{R}:count"])
p("C74","Threads that use gradients at the same time do not disturb each other",
  "When several threads call backward, update_grad, zero_grad and grad on shared tensors, every interleaving ends like some order of the calls: no gradient is lost and no thread panics that would not have panicked alone. (False for threads that share a tensor: update_grad takes its lock twice, and an update made in between is lost; true for threads whose graphs have no tensor in common.)",
  "all numbers of threads, programs of calls, reachable graphs, interleavings and lock policies",
  "a lost update needs two threads between two particular lines; the test suite uses shared tensors from one thread only, and a stress test would hit the window rarely and unrepeatably.",
  [f"{R}:update_grad", f"{R}:zero_grad", f"{RC}:grad", f"{RC}:backward", f"{J}:compute_jvp"])
p("C75","Concurrent use of gradients cannot deadlock",
  "Threads that use the gradients of the same tensors never block each other for ever: as long as one has not ended, one can go on; every run is over after at most four lock operations per call; no two threads are in a cell when one of them writes.",
  "all numbers of threads, programs of calls, interleavings and lock policies",
  "a deadlock is a property of all interleavings; a test sees one.",
  [f"{R}:update_grad", f"{R}:zero_grad", f"{RC}:grad"])
p("C76","A computation fails exactly if its shapes do not fit",
  "A program of calls that compute tensors (constructors, + - neg * abs relu tanh sum dot bmm, copies and windows) runs without a panic if and only if its shapes follow the rules of a small type system (numpy broadcasting, equal shapes, inner dimensions, windows within bounds), and then every tensor has the shape the rules give. The rules do not look at the data.",
  "all programs of such calls, over all element types, data and shapes without zero dimensions",
  "tests try single calls with shapes that fit or do not; that nothing else in any sequence of calls can fail, and that no bad shape slips through, is a statement about all programs.",
  [f"{RC}:Add for RcTensor", f"{RC}:Mul for RcTensor", f"{RC}:bmm", f"{RC}:sum", f"{M}:dot", f"{V}:new", f"{R}:new", f"{E}:generic_binop_raw"])
p("C77","Which computations backward can differentiate",
  "backward succeeds if and only if its root has one element and a history and the shape of every gradient it passes down fits the operation that receives it, by rules that only name shapes (add, neg, relu: one row, or one number; abs: one row; tanh: one row, or deeper with leading ones; bmm of matrices: one row, of a higher rank: only a left factor of one element; dot: a number, or the operands' own shape). Otherwise it panics. So whether it works does not depend on data or on earlier gradients.",
  "all reachable heaps without empty tensors, all roots",
  "which graphs pass depends on interactions between rules (dot hands on gradients of the operand's shape, which neg, abs, bmm below it refuse unless it is one row); tests cover a few fixed graphs.",
  [f"{J}:compute_jvp", f"{RC}:backward", f"{E}:generic_unary_jvp", f"{E}:generic_binop_jvp", f"{E}:abs_jvp", f"{J}:jvp_from_full_jacobians", f"{M}:bmm_jvp", f"{M}:dot_jvp"])
p("C78","Products of batches of matrices can be differentiated",
  "bmm takes a batch of matrices on the left, and its result can be differentiated. (False: backward panics for every root computed from a bmm whose left factor has three or more dimensions and more than one element. The sum of a product of two leaves of that kind can be differentiated exactly if the left factor has a single element.)",
  "all reachable heaps without empty tensors, all roots computed from such a product",
  "the tests differentiate bmm of matrices only; that no graph with a batch can be differentiated is a statement about all graphs.",
  [f"{M}:bmm_jvp", f"{M}:bmm_raw", f"{RC}:backward"])
p("C79","Floats stay within a running error bound",
  "Run a program, including backward passes, on triples (exact value, error bound, magnitude bound), where every operation adds the error of one rounding. If the signs of the inputs of abs and relu are known, the program on floats of any precision succeeds, and every value and gradient it computes is finite and within the bound of what exact arithmetic would give; gradients are then within the bound of the true derivatives. The same holds for the training program of main.rs. The bounds can be computed with rational intervals. (False without known signs: relu of a sum that rounds to zero gets derivative 1 instead of 0.)",
  "all programs, all input data with error bounds, all float formats, every tanh within a given error; the training program for all sizes, rounds and weights",
  "tests compare a few floats with expected values and a tolerance; how far rounding carries through a whole program is a statement about all programs and all data.",
  [f"{E}:generic_unary_op", f"{M}:bmm_raw", f"{E}:relu", f"{RC}:backward", "src/main.rs:main"])
p("C80","Whole programs do not depend on the thread schedule",
  "Let every matrix product and every backward pass of one, anywhere in a program or in the training program of main.rs, go as any run of its concurrent jobs goes. With an exact addition every run ends in the same values and gradients as the sequential reading. With any arithmetic, floats included, every run makes the same tensors, histories, shapes and gradients, or panics, as every other; a run that ends always exists; and with one worker the result is that of the sequential reading, bit for bit. (False for floats and two workers: the same program has two different gradients.)",
  "all programs, element types, data, numbers of workers and schedules",
  "a test sees the few schedules the machine happens to choose, and compares with a tolerance or on small integers.",
  [f"{M}:bmm_raw", f"{M}:bmm_jvp", f"{RC}:backward", f"{J}:compute_jvp", "src/main.rs:main"])
p("C81","Rounding errors are bounded whatever the thread schedule",
  "Run a program, including backward passes, on numbers that carry, besides the exact value, the sum of the magnitudes and of the errors of their terms and the number of additions; this addition is associative and commutative. If the signs of the inputs of abs and relu are known, then under every thread schedule and number of workers the program on floats of any precision succeeds, and every value and gradient is finite and within (1+u)^n(M+e)-M of the exact one; two schedules differ by at most twice that; gradients are within it of the true derivatives. The same holds for the training program of main.rs. The bounds can be computed with rational intervals. If all numbers are whole and stay within 2^prec, every schedule gives the exact result.",
  "all programs, input data with error bounds, float formats, numbers of workers, schedules and every tanh within a given error; the training program for all sizes, rounds and weights",
  "the order in which the messages of a backward pass are added up is the machine's choice; a test sees one of them and cannot bound the others.",
  [f"{M}:bmm_jvp", f"{M}:bmm_raw", f"{RC}:backward", f"{E}:relu", "src/main.rs:main"])
p("C82","At kinks backward differentiates the computation with its branches kept",
  "Where abs or relu meet their kink there is no derivative. For every root and tensor that can be differentiated, the gradients backward leaves are the partial derivatives of the recorded computation in which every abs and relu goes on using, entry by entry, the branch it took (abs: x where x>=0, relu: 0 where x<0). Where no input of an abs or relu is 0, that computation agrees with the recorded one near the point, and the gradients are the true derivatives. (It is false that the gradient is the derivative whenever there is one: |x|-|-x| is constant but its gradient at 0 is 2.)",
  "all programs, roots, tensors and real data",
  "a test at a kink pins one number; which function's derivative it is, for all graphs, is a statement about limits.",
  [f"{E}:abs_jvp", f"{E}:relu", f"{RC}:backward"])
p("C83","Training works from any parameters, kinks included",
  "One round of the training loop succeeds from any parameters, also where the loss has no derivative, and moves every parameter by -step times the derivative of the loss in which the activations and the absolute values keep the branches they take there; that derivative always exists. Any number of rounds on any samples never fails and consists of such steps. At the branches taken that loss is the loss. (False: a network with loss 0 does not stay there; the step is taken along the right-hand branch of abs, and the loss becomes positive.)",
  "all networks with matrices of at most 32 entries, activations none/relu/tanh/abs/neg, samples, step sizes, numbers of rounds",
  "parameters at kinks are a set of measure zero that random tests miss, and the statement is about derivatives for all networks.",
  [f"{S}:sgd_step", "src/main.rs:main", f"{RC}:backward", f"{E}:abs_jvp", f"{F}:forward"])
p("C84","Training a linear layer approaches the best possible loss",
  "For a network of one layer without an activation, trained by the loop on any samples with any positive step size, from any parameters: compared with any other parameters the sum of the losses of the rounds exceeds that of the other parameters by at most D/(2 step) + step/2 times the sum of the squared gradient bounds (D: squared distance of the initial parameters from the others). So on one sample, for every eps, every small enough step and enough rounds, some round has a loss at most eps above that of any other parameters.",
  "all layer sizes with matrices of at most 32 entries, samples, parameters, positive step sizes and numbers of rounds",
  "a statement about all runs of any length compared with all parameters; tests train one network for a few rounds.",
  [f"{S}:sgd_step", "src/main.rs:main", f"{RC}:backward", f"{F}:forward"])
p("C85","backward depends only on what its root was computed from",
  "In two reachable states in which the history of the root (all tensors it was computed from, with their values, operations and gradients so far) is the same up to the names of the tensors, backward panics with the same panic or leaves the same gradients on that history, whatever else is in the two states. So tensors made in between do not matter, and the exact conditions for success (C77) and the gradient theorem (C31) hold with their conditions on the history of the root only: empty tensors and products of batches may exist elsewhere.",
  "all number types (gradient: real numbers), pairs of reachable states, renamings, roots",
  "compares all pairs of program states with a common history; tests only call backward right after building one graph.",
  [f"{RC}:backward", f"{J}:compute_jvp", f"{E}:add_jvp", f"{M}:bmm_jvp"])
p("C86","Whole programs compute with machine words what they compute with unbounded numbers",
  "Every function of the crate that calculates with usize, run with words that overflow: with overflow checks a program does exactly what it does with unbounded numbers, or panics because of an overflow; if it returns with checks, it returns the same without them. If no tensor of the program is empty or has more than B elements and B*B is less than the number of words (2^31 elements with 64 bits), nothing overflows in the forward and backward passes, in both kinds of build. Without checks, a program can return where the mathematical one panics: false in general, for every word length.",
  "all number types, word lengths, programs (small tensors: without update_grad and product with a view)",
  "overflow needs tensors with billions of elements; the claim covers every intermediate product and index of every program.",
  [f"{U}:global_index", f"{U}:increment_index", f"{R}:new", f"{E}:jvp_from_diagonal_broadcast", f"{M}:bmm_jvp", f"{J}:compute_jvp"])
p("C87","The loops as they stand in the source compute what the model says",
  "The statements of the crate's calculating functions - the odometer and index arithmetic of utils.rs, constructors, get/set, the two iterators, materialisation, views with their sum, reshape and comparison, broadcasting, element-wise operations, the rules of derivatives, products of vectors and matrices - written down statement by statement in a small imperative language (mutable variables, shadowing, while/for/loop, break/continue/return, &mut parameters, split_at_mut), compute exactly the functions of the model: same results, same panics, and the same changes to &mut arguments, for machine words with and without overflow checks and for unbounded numbers. With overflow checks, whatever bmm_raw returns is the matrix product and whatever generic_binop_raw returns is the broadcast sum. So too for bmm_jvp with SplitArrayWriter, its tasks run in order and its channels holding what was sent until the receivers run: it returns what the model returns and panics when the model panics.",
  "all arguments, number types, closures, word lengths above the rank; loops given enough turns",
  "off-by-one errors in loop bounds, carries, shadowed variables and early exits depend on shape and rank; tests run a few shapes, the claim covers every one.",
  [f"{U}:increment_index", f"{U}:reset_trailing_indices", f"{U}:global_index", f"{U}:tensor_index_inplace", f"{U}:next", f"{E}:generic_binop_raw", f"{E}:jvp_from_diagonal_broadcast", f"{E}:generic_binop_jvp", f"{M}:bmm_raw", f"{M}:bmm_jvp", f"{M}:start_then_join"])
p("C88","Whole programs run by the source's statements do what the model says, gradients included",
  "A program of API calls whose every calculation - constructors, forward operations, views, sums of gradients, and each rule that backward applies, with the closures its operation passes - is carried out by running the statements of the crate (C87) ends, given enough turns for its loops; with unbounded numbers it returns exactly when the model of C31-C86 does and the same state; with overflow checks whatever it returns is what it returns without them and what the model returns, and the only other ending of a program that runs in the model is the panic of an overflowing usize, which does not happen on words wide enough for the program: words of w bits suffice while no tensor is empty or has more than 2^b elements with 2b < w (C86). So with real numbers the statements of the source leave derivatives in the gradients of a program of differentiable calls.",
  "all programs, number types, word lengths; all closures of the crate",
  "a disagreement between a rule and the place that calls it, or between debug and release builds, shows for particular graphs and shapes only; the claim covers every program and every word length.",
  [f"{J}:compute_jvp", f"{RC}:backward", f"{E}:add_jvp", f"{E}:relu", f"{M}:bmm_jvp", f"{M}:dot", f"{R}:update_grad", f"{R}:sum", f"{V}:new"])
p("C89","Training and main.rs run by the source's statements do what the model says",
  "A network's forward pass, the loss, backward, sgd_step and the loop around them, with every calculation carried out by running the statements of the crate (C87), return with unbounded numbers and enough turns exactly when the model's training loop (C53, C60) does and with the same heap and network. With overflow checks whatever they return, however many turns they had, is what they return without the checks and what the model returns; a run that succeeds in the model succeeds or panics because a usize overflowed, and succeeds on words wide enough. So over the real numbers the statements of the source carry out gradient descent, and main.rs runs to its end on words wide enough for all numbers its generator delivers; while all tensors are scalars or matrices of at most D rows and columns, more than D^4 words suffice for any number of rounds, so main.rs runs through on a 64-bit machine.",
  "all networks with the crate's activations or none, steps, heaps, lists of samples, number types, word lengths and numbers of turns; all sizes in main.rs",
  "training is tested on one network with one seed; an error in how a layer, a rule and the optimiser fit together shows for other sizes, activations or numbers of rounds.",
  [f"{L}:forward", f"{F}:forward", f"{F}:update_params", f"{S}:sgd_step", f"{RC}:backward", "src/main.rs:main"])
with open("/verif/properties.jsonl","w") as f:
    for d in P: f.write(json.dumps(d, ensure_ascii=False)+"\n")
print(len(P))
