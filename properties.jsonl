{"id": "C01", "title": "In-range get reads the row-major element", "statement": "For a tensor created by RawTensor::new/RcTensor::new from (array, shape), get(index) with one coordinate per dimension, each smaller than its dimension, returns Ok of the array element at the row-major position of index.", "quantifier": "all shapes (any rank, any dimensions), all arrays accepted by the constructor, all in-range indices", "why_tests_cant": "Rank and dimensions are unbounded; the tests read a handful of cells of 2x2x2, 3x3 and 3x3x4 tensors.", "anchors": ["src/tensor/utils.rs:global_index", "src/tensor/raw_tensor.rs:RawTensor::get", "src/tensor/rc_tensor.rs:RcTensor::get"]}
{"id": "C02", "title": "get follows numpy index broadcasting, and rejects everything else with Err", "statement": "For a tensor with no zero-sized dimension get never panics on any index: extra leading coordinates are ignored, the coordinate of a size-1 dimension is ignored, an index shorter than the shape is accepted exactly when the missing leading dimensions are all of size 1; it returns Err exactly when a coordinate of a dimension of size >= 2 is out of range or a missing leading dimension is of size >= 2.", "quantifier": "all shapes without zero dimensions, all index vectors of any length and any values", "why_tests_cant": "The doc tests show three broadcast reads; the claim is an if-and-only-if over all indices.", "anchors": ["src/tensor/utils.rs:global_index", "src/tensor/raw_tensor.rs:RawTensor::get"]}
{"id": "C03", "title": "get returns a Result for every tensor, including empty ones", "statement": "get never panics, whatever the tensor's shape (zero-sized dimensions included) and whatever the index.", "quantifier": "all tensors the constructor accepts, all indices", "why_tests_cant": "The failing inputs (an index shorter than the shape of an empty tensor) are outside what the tests sample.", "anchors": ["src/tensor/utils.rs:global_index", "src/tensor/raw_tensor.rs:RawTensor::get"]}
{"id": "C04", "title": "Multi-indices and storage positions are in bijection", "statement": "Converting a storage position to a multi-index and back is the identity, and so is converting an in-range multi-index to its storage position and back; hence distinct in-range indices address distinct elements and every element is addressed. A position past the end is reported as an error.", "quantifier": "all shapes without zero dimensions, all positions and all in-range indices", "why_tests_cant": "The unit test sweeps three shapes; the law is for all shapes.", "anchors": ["src/tensor/utils.rs:tensor_index", "src/tensor/utils.rs:tensor_index_inplace", "src/tensor/utils.rs:global_index"]}
{"id": "C05", "title": "Index iteration visits every index once, in row-major order", "statement": "iter_indices() on a tensor yields exactly the in-range indices, each once, in row-major (lexicographic) order, and then ends; a rank-0 tensor yields the single empty index.", "quantifier": "all shapes without zero dimensions", "why_tests_cant": "Iteration length is the product of the dimensions; tests check [2,2,2] and [2,3,2].", "anchors": ["src/tensor/utils.rs:IndexIterator", "src/tensor/utils.rs:increment_index", "src/tensor/utils.rs:reset_trailing_indices", "src/tensor/tensor_like.rs:iter_indices"]}
{"id": "C06", "title": "Index iteration over an empty tensor yields nothing", "statement": "iter_indices() on a tensor with a zero-sized dimension yields no index and does not panic.", "quantifier": "all shapes with at least one zero dimension", "why_tests_cant": "No test builds an empty tensor.", "anchors": ["src/tensor/utils.rs:IndexIterator", "src/tensor/utils.rs:increment_index"]}
{"id": "C07", "title": "The constructor accepts exactly matching lengths and stores the data unchanged", "statement": "new(array, shape) succeeds if and only if array.len() is the product of shape, and the result has exactly that array and shape, no gradient and no graph history; new_with_filler(shape, x) always succeeds and holds product(shape) copies of x; scalar(x) has shape [] and is_scalar holds for it and exactly for tensors of rank 0 with one element.", "quantifier": "all arrays, shapes and fill values", "why_tests_cant": "Equality of a product of arbitrarily many dimensions with a length.", "anchors": ["src/tensor/raw_tensor.rs:RawTensor::new", "src/tensor/raw_tensor.rs:new_with_filler", "src/tensor/raw_tensor.rs:scalar", "src/tensor/raw_tensor.rs:is_scalar"]}
{"id": "C08", "title": "Nested vectors convert to the tensor with the same elements", "statement": "From<nested Vec/array> succeeds if and only if the nesting is rectangular and no level is empty; the shape lists the lengths from the outside in, and get at [i1,...,in] is the element at value[i1]...[in].", "quantifier": "all nested vectors of any depth and any lengths", "why_tests_cant": "Depth and lengths unbounded; tests convert depth 1-3 literals.", "anchors": ["src/tensor/raw_tensor.rs:From<Vec<U>>", "src/tensor/raw_tensor.rs:From<[U;N]>", "src/tensor/raw_tensor.rs:From<T>", "src/tensor/rc_tensor.rs:From"]}
{"id": "C09", "title": "Index arithmetic never overflows the machine word for a tensor that was built", "statement": "With 64-bit checked arithmetic, for every tensor with no zero dimension that the constructor accepted (its length fits in a word), computing the position of any index either succeeds with the unbounded-arithmetic answer or reports Err, and never overflows; with wrapping arithmetic the answer is the same.", "quantifier": "all word sizes, all accepted tensors without zero dimensions, all indices", "why_tests_cant": "Overflow needs shapes whose product is near 2^64.", "anchors": ["src/tensor/utils.rs:global_index", "src/tensor/raw_tensor.rs:RawTensor::new"]}
{"id": "C10", "title": "The constructor's length check cannot be fooled by wrap-around", "statement": "Even with wrapping (release-profile) arithmetic, new(array, shape) succeeds only if array.len() is the mathematical product of shape.", "quantifier": "all shapes with machine-word dimensions", "why_tests_cant": "The witnesses have dimensions like 2^32.", "anchors": ["src/tensor/raw_tensor.rs:RawTensor::new"]}
{"id": "C11", "title": "A view reads the selected window of its tensor", "statement": "view/slice with one range [start,end) per dimension, each end <= dimension, succeeds, has shape end-start, and get/[] at an in-range view index returns the tensor's element at index+start; the view is refused (panic) exactly when the number of ranges differs from the rank or some end exceeds its dimension.", "quantifier": "all tensors, all lists of ranges, all in-range view indices", "why_tests_cant": "Ranges and shapes are unbounded; tests check a few literals.", "anchors": ["src/tensor/tensor_view.rs:TensorView::new", "src/tensor/tensor_view.rs:TensorView::get", "src/tensor/tensor_view.rs:Index", "src/tensor/raw_tensor.rs:slice", "src/tensor/rc_tensor.rs:view", "src/tensor/utils.rs:global_index"]}
{"id": "C12", "title": "Materialising, summing and comparing a view agree with its elements", "statement": "For a non-empty view, to_tensor() is the tensor of the view's shape holding the view's elements in row-major order, count() is its length, sum() is the left-to-right sum of these elements, deep_clone() has the same elements, and a view equals another tensor-like if and only if shapes and all elements agree.", "quantifier": "all tensors and all non-empty windows", "why_tests_cant": "Any window of any tensor.", "anchors": ["src/tensor/tensor_view.rs:to_tensor", "src/tensor/tensor_view.rs:sum", "src/tensor/tensor_view.rs:PartialEq", "src/tensor/utils.rs:ElementIterator", "src/tensor/tensor_like.rs:deep_clone"]}
{"id": "C13", "title": "A view's get reports an out-of-range index as Err", "statement": "TensorView::get returns Err for an index outside the view, as its Result type says, and does not panic.", "quantifier": "all views and all indices", "why_tests_cant": "For every view there is such an index; the tests never read outside.", "anchors": ["src/tensor/tensor_view.rs:TensorView::get"]}
{"id": "C14", "title": "Slicing a view selects a window of that view", "statement": "view.slice(ranges) is relative to the view: its element at index is the view's element at index+start, and it can never expose elements outside the view.", "quantifier": "all views and all ranges", "why_tests_cant": "Composition over all windows.", "anchors": ["src/tensor/tensor_view.rs:slice"]}
{"id": "C15", "title": "Reshaping a view keeps its elements in row-major order", "statement": "view.reshape(shape) with the same number of elements yields a view whose row-major element sequence is that of the original view.", "quantifier": "all views and all shapes of the same size", "why_tests_cant": "Any pair of shapes of the same size.", "anchors": ["src/tensor/tensor_view.rs:reshape", "src/tensor/tensor_view.rs:TensorView::get"]}
{"id": "C16", "title": "A view with a size-1 dimension broadcasts like a tensor of that shape", "statement": "Adding a view to a tensor gives the same result as adding the materialised view.", "quantifier": "all tensors and views with broadcastable shapes", "why_tests_cant": "Any window, any broadcast.", "anchors": ["src/tensor/utils.rs:global_index", "src/tensor/functional/element_wise_ops.rs:generic_binop_raw"]}
{"id": "C17", "title": "Addition is numpy broadcasting addition", "statement": "For tensors without zero dimensions, a + b succeeds if and only if the shapes are broadcast-compatible (right-aligned, equal or 1); the result has the broadcast shape and its element at every index is a's plus b's element at that index with size-1 coordinates clamped to 0. Holds for RawTensor and RcTensor operands alike.", "quantifier": "all shapes and data", "why_tests_cant": "All pairs of ranks/dimensions.", "anchors": ["src/tensor/functional/element_wise_ops.rs:add_raw", "src/tensor/functional/element_wise_ops.rs:generic_binop_raw", "src/tensor/functional/element_wise_ops.rs:max_shape", "src/tensor/tensor_like.rs:broadcastable", "src/tensor/rc_tensor.rs:Add", "src/tensor/raw_tensor.rs:Add"]}
{"id": "C18", "title": "Addition is commutative and associative up to the element type, and zero is neutral", "statement": "If element addition is commutative then a+b = b+a (same shape, same data, or both refused); if it is associative then (a+b)+c = a+(b+c) whenever either side is defined and no dimension is zero; adding a scalar zero leaves a unchanged.", "quantifier": "all shapes and data, all element types with the law", "why_tests_cant": "Universally quantified algebra over shapes.", "anchors": ["src/tensor/functional/element_wise_ops.rs:add_raw", "src/tensor/functional/element_wise_ops.rs:max_shape"]}
{"id": "C19", "title": "Broadcasting handles zero-sized dimensions as numpy does", "statement": "Adding two broadcast-compatible tensors one of which has a zero-sized dimension yields the empty tensor of the broadcast shape.", "quantifier": "all compatible shapes with a zero dimension", "why_tests_cant": "No test uses empty tensors.", "anchors": ["src/tensor/functional/element_wise_ops.rs:max_shape", "src/tensor/functional/element_wise_ops.rs:generic_binop_raw"]}
{"id": "C20", "title": "Negation and subtraction", "statement": "-a has a's shape and negated elements; a-b is a+(-b) element-wise under broadcasting; a-a is all zeros and -(-a) is a when the element type is a ring.", "quantifier": "all shapes and data", "why_tests_cant": "All shapes.", "anchors": ["src/tensor/raw_tensor.rs:Neg", "src/tensor/raw_tensor.rs:Sub", "src/tensor/rc_tensor.rs:Neg", "src/tensor/rc_tensor.rs:Sub", "src/tensor/functional/element_wise_ops.rs:generic_unary_op"]}
{"id": "C21", "title": "relu, tanh and abs act element by element and keep the shape", "statement": "For every tensor (empty ones included) relu/tanh/abs succeed, keep the shape, and apply the scalar function to each element in place.", "quantifier": "all shapes and data", "why_tests_cant": "All shapes.", "anchors": ["src/tensor/functional/element_wise_ops.rs:relu", "src/tensor/functional/element_wise_ops.rs:tanh", "src/tensor/functional/element_wise_ops.rs:abs", "src/tensor/functional/element_wise_ops.rs:generic_unary_op"]}
{"id": "C22", "title": "Multiplication: scalar scaling and same-shape element-wise product, otherwise refused", "statement": "a*b with a of rank 0 is b scaled (scalar on the left); with b of rank 0 it is a scaled (scalar on the right); with equal shapes and no zero dimension it is the element-wise product; in every other case it panics; the result always has as many elements as its shape says.", "quantifier": "all tensors", "why_tests_cant": "All pairs of shapes.", "anchors": ["src/tensor/raw_tensor.rs:Mul", "src/tensor/tensor_like.rs:left_scalar_multiplication", "src/tensor/tensor_like.rs:right_scalar_multiplication", "src/tensor/functional/misc.rs:element_wise_multiplication", "src/tensor/rc_tensor.rs:Mul"]}
{"id": "C23", "title": "Scaling a view scales the view's elements", "statement": "scalar * view equals scalar * view.to_tensor(); in particular the result has as many elements as its shape says.", "quantifier": "all scalars and views", "why_tests_cant": "Any window.", "anchors": ["src/tensor/tensor_like.rs:left_scalar_multiplication", "src/tensor/tensor_like.rs:right_scalar_multiplication", "src/tensor/raw_tensor.rs:Mul"]}
{"id": "C24", "title": "sum adds all elements once, in storage order", "statement": "sum() of a tensor is a scalar equal to zero plus the elements added left to right; for a commutative ring it does not depend on element order, sum(a+b)=sum a+sum b for equal shapes and sum(c*a)=c*sum a.", "quantifier": "all tensors", "why_tests_cant": "All sizes.", "anchors": ["src/tensor/raw_tensor.rs:sum", "src/tensor/rc_tensor.rs:sum"]}
{"id": "C25", "title": "bmm is (batched) matrix multiplication", "statement": "For left [n,k] or [b,n,k] and right [k,m], bmm succeeds with shape [n,m] resp. [b,n,m] and element (b,)i,j equal to the left-to-right sum over t of left[(b,)i,t]*right[t,j] starting at zero; it is refused when the inner dimensions differ or right is not rank 2 or left has rank < 2. Operands may be views.", "quantifier": "all dimensions (zero included for the outer ones), all data", "why_tests_cant": "All sizes.", "anchors": ["src/tensor/functional/misc.rs:bmm_raw", "src/tensor/rc_tensor.rs:bmm_rc", "src/tensor/raw_tensor.rs:bmm", "src/tensor/tensor_view.rs:bmm_rc"]}
{"id": "C26", "title": "bmm's result does not depend on the thread schedule", "statement": "Whatever order the spawned element tasks run in, bmm produces the same array, for every element type including floats, and every task's slot is written exactly once.", "quantifier": "all schedules of the spawned tasks, all operands", "why_tests_cant": "Schedules are exponentially many and not controllable from a test.", "anchors": ["src/tensor/functional/misc.rs:bmm_raw"]}
{"id": "C27", "title": "Matrix algebra laws", "statement": "Over a commutative ring of elements: (AB)C = A(BC), A(B+C) = AB+AC, (A+B)C = AC+BC, and multiplying by the identity matrix on either side leaves A unchanged.", "quantifier": "all conforming dimensions and data", "why_tests_cant": "All sizes.", "anchors": ["src/tensor/functional/misc.rs:bmm_raw"]}
{"id": "C28", "title": "bmm with left operand of rank above 3 is refused or correct", "statement": "bmm never returns an Ok tensor that is not the batched matrix product; for unsupported ranks it is refused.", "quantifier": "all ranks", "why_tests_cant": "Rank 4 with leading 1s is not sampled.", "anchors": ["src/tensor/functional/misc.rs:bmm_raw"]}
{"id": "C29", "title": "dot is the sum of element products", "statement": "dot(a,b) of equal shapes is a one-element tensor of shape [1] holding the left-to-right sum of products; it is refused when shapes differ; over a commutative ring dot(a,b)=dot(b,a).", "quantifier": "all tensors of equal shape", "why_tests_cant": "All sizes.", "anchors": ["src/tensor/functional/misc.rs:dot_raw", "src/tensor/functional/misc.rs:dot", "src/tensor/functional/misc.rs:dot_no_derivative"]}
{"id": "C30", "title": "dot with a view uses the view's elements", "statement": "raw.dot(&view) equals raw.dot(&view.to_tensor()).", "quantifier": "all views with the shape of raw", "why_tests_cant": "Any window.", "anchors": ["src/tensor/functional/misc.rs:dot_raw", "src/tensor/raw_tensor.rs:dot"]}
{"id": "C31", "title": "backward computes the gradient", "statement": "For every program over f64-as-real tensors that builds a graph from leaves with +, -, neg, relu, tanh, abs, bmm (rank 2) and ends in sum() of a tensor, and no input of relu/abs is at its kink, loss.backward() succeeds and each leaf's accumulated gradient entry is the partial derivative of the loss value with respect to that leaf entry (leaves that do not influence the loss get none).", "quantifier": "all programs, shapes, broadcasts, sharing patterns (DAGs), leaves and entries", "why_tests_cant": "A limit statement for every graph; numerical tests compare a few entries with a tolerance.", "anchors": ["src/tensor/autograd/jvp.rs:compute_jvp", "src/tensor/rc_tensor.rs:backward", "src/tensor/functional/element_wise_ops.rs:generic_binop_jvp", "src/tensor/functional/element_wise_ops.rs:generic_unary_jvp", "src/tensor/functional/element_wise_ops.rs:jvp_from_diagonal_broadcast", "src/tensor/functional/element_wise_ops.rs:tanh_derivative_outer", "src/tensor/functional/misc.rs:bmm_jvp", "src/tensor/autograd/jvp.rs:ones"]}
{"id": "C32", "title": "Each vector-Jacobian product is exact", "statement": "Over any commutative ring, for add (with broadcasting), neg, abs, relu, tanh, bmm and dot the backward rule maps an incoming gradient matrix G to G times the operation's Jacobian at the recorded inputs, one row per row of G.", "quantifier": "all shapes, data, numbers of rows", "why_tests_cant": "All sizes.", "anchors": ["src/tensor/functional/element_wise_ops.rs:generic_binop_jvp", "src/tensor/functional/element_wise_ops.rs:generic_unary_jvp", "src/tensor/functional/element_wise_ops.rs:tanh_derivative", "src/tensor/functional/misc.rs:bmm_jvp", "src/tensor/functional/misc.rs:dot_jvp", "src/tensor/autograd/jvp.rs:jvp_from_full_jacobians"]}
{"id": "C33", "title": "bmm's gradient is right for matrices of every size", "statement": "A.bmm(&B).sum().backward() gives A.grad[i,t] = sum_j B[t,j] and B.grad[t,j] = sum_i A[i,t] for all matrix sizes.", "quantifier": "all matrix sizes", "why_tests_cant": "Needs gradient arrays of more than 32 elements; the tests stay below.", "anchors": ["src/tensor/functional/misc.rs:SplitArrayWriter", "src/tensor/functional/misc.rs:bmm_jvp"]}
{"id": "C34", "title": "sum's gradient scales with what is done to the sum", "statement": "The gradient of f(x.sum()) with respect to x is f' times ones: in particular (-(x.sum())).backward() gives -1 everywhere.", "quantifier": "all tensors x and one-element graphs above the sum", "why_tests_cant": "No test differentiates through a sum.", "anchors": ["src/tensor/autograd/jvp.rs:ones", "src/tensor/rc_tensor.rs:sum"]}
{"id": "C35", "title": "Products are differentiated", "statement": "After (&a * &b).sum().backward(), a's gradient is b and b's gradient is a.", "quantifier": "all tensors", "why_tests_cant": "No test differentiates through a product.", "anchors": ["src/tensor/rc_tensor.rs:Mul", "src/tensor/raw_tensor.rs:Mul"]}
{"id": "C36", "title": "Gradients accumulate additively over backward calls and uses", "statement": "backward adds its contribution to whatever gradient is stored: calling it n times without zero_grad gives n times the gradient; a tensor used in several places receives the sum over all uses; zero_grad forgets exactly the accumulated gradient of that tensor.", "quantifier": "all graphs, all call sequences", "why_tests_cant": "All graphs and all numbers of calls.", "anchors": ["src/tensor/raw_tensor.rs:update_grad", "src/tensor/raw_tensor.rs:zero_grad", "src/tensor/autograd/jvp.rs:compute_jvp", "src/tensor/rc_tensor.rs:backward"]}
{"id": "C37", "title": "Gradients have the shape of their tensor", "statement": "After any program of operations, backward and zero_grad calls, a stored gradient of a tensor that is not itself the result of sum() has exactly that tensor's shape and element count.", "quantifier": "all programs", "why_tests_cant": "All graphs and broadcasts.", "anchors": ["src/tensor/autograd/jvp.rs:compute_jvp", "src/tensor/raw_tensor.rs:update_grad"]}
{"id": "C38", "title": "A stored gradient of a sum() result has its shape too", "statement": "The gradient of the result of x.sum() is a scalar: none before backward, and only what backward puts there.", "quantifier": "all tensors x", "why_tests_cant": "Tests never look at the gradient of a sum.", "anchors": ["src/tensor/raw_tensor.rs:sum", "src/tensor/rc_tensor.rs:sum"]}
{"id": "C39", "title": "Operations never change existing tensors; backward only touches gradients of the root's ancestors", "statement": "No operation changes the data, shape or history of an existing tensor; forward operations change no existing gradient; backward changes only gradients of tensors from which the root was computed.", "quantifier": "all programs", "why_tests_cant": "All histories.", "anchors": ["src/tensor/rc_tensor.rs:RcTensor", "src/tensor/autograd/jvp.rs:compute_jvp", "src/tensor/raw_tensor.rs:update_grad"]}
{"id": "C40", "title": "Every tensor a program can build is well formed", "statement": "After any sequence of API calls on tensors (constructors, arithmetic, bmm, dot, activations, sum, deep_clone, sgd steps), every live tensor's element count is the product of its shape and its history only refers to earlier tensors.", "quantifier": "all programs", "why_tests_cant": "All histories.", "anchors": ["src/tensor/raw_tensor.rs:RawTensor", "src/tensor/rc_tensor.rs:RcTensor", "src/tensor/tensor_like.rs:deep_clone"]}
{"id": "C41", "title": "backward always terminates, and fails only for stated reasons", "statement": "On every reachable graph backward terminates; it panics at once exactly when the root does not have one element or has no history; on graphs made of +, -, neg, relu, tanh over non-empty tensors it succeeds for every one-element root.", "quantifier": "all reachable graphs and roots", "why_tests_cant": "All graphs.", "anchors": ["src/tensor/rc_tensor.rs:backward", "src/tensor/autograd/jvp.rs:compute_jvp"]}
{"id": "C42", "title": "backward works for every one-element result of a differentiable operation", "statement": "If a one-element tensor was produced by bmm, abs or dot of leaves or of other results, backward succeeds.", "quantifier": "all graphs with a one-element root", "why_tests_cant": "Root shapes other than those in the tests.", "anchors": ["src/tensor/functional/misc.rs:bmm_jvp", "src/tensor/functional/element_wise_ops.rs:abs_jvp", "src/tensor/functional/misc.rs:dot_jvp", "src/tensor/autograd/jvp.rs:jvp_from_full_jacobians"]}
{"id": "C43", "title": "bmm's backward is schedule-independent for exact arithmetic", "statement": "Whatever the interleaving of the writer tasks, channels and receiver tasks, the parallel gradient computation ends with the same arrays when element addition is commutative and associative; no message is lost, duplicated or applied out of bounds.", "quantifier": "all interleavings, all matrix sizes", "why_tests_cant": "Schedules.", "anchors": ["src/tensor/functional/misc.rs:SplitArrayWriter", "src/tensor/functional/misc.rs:bmm_jvp"]}
{"id": "C44", "title": "bmm's backward is deterministic for floats", "statement": "Two runs of backward on the same graph give bit-identical float gradients.", "quantifier": "all schedules", "why_tests_cant": "Schedules.", "anchors": ["src/tensor/functional/misc.rs:SplitArrayWriter::start_then_join"]}
{"id": "C45", "title": "bmm's backward does not deadlock", "statement": "With a pool of any number of worker threads >= 1, the writer/receiver tasks of the parallel gradient computation always finish: (a) when jobs start in submission order; (b) whatever order the pool starts them in.", "quantifier": "all pool sizes, matrix sizes and job orders", "why_tests_cant": "Deadlock depends on pool size and job order.", "anchors": ["src/tensor/functional/misc.rs:SplitArrayWriter::start_then_join", "src/tensor/functional/misc.rs:bmm_jvp"]}
{"id": "C46", "title": "Concurrent gradient updates are not lost", "statement": "If several threads call update_grad (through backward) on the same tensor at the same time, the final gradient is the sum of all contributions.", "quantifier": "all interleavings", "why_tests_cant": "Race.", "anchors": ["src/tensor/raw_tensor.rs:update_grad"]}
{"id": "C47", "title": "Linear and Mlp compute what they say", "statement": "Linear.forward(x) is activation(x.bmm(W)+b); with no activation, for x [n,i], W [i,o], b [1,o] or [o], its element (r,c) is sum_t x[r,t]W[t,c] + b[c]; Mlp.forward is the left-to-right composition of its layers.", "quantifier": "all layer sizes, batches, layer counts, activations", "why_tests_cant": "All sizes.", "anchors": ["src/nn/linear.rs:forward", "src/nn/linear.rs:new", "src/nn/feed_foward.rs:forward"]}
{"id": "C48", "title": "Parameter lists round-trip", "statement": "params() lists weights then bias for each layer in order; update_params(list) with 2 tensors per layer makes params() return exactly that list and changes nothing else; update_params(params()) changes nothing; with fewer tensors it panics.", "quantifier": "all networks and lists", "why_tests_cant": "All lengths.", "anchors": ["src/nn/linear.rs:params", "src/nn/linear.rs:update_params", "src/nn/feed_foward.rs:params", "src/nn/feed_foward.rs:update_params"]}
{"id": "C49", "title": "sgd_step is one step of gradient descent", "statement": "If every parameter has a gradient, sgd_step with a rank-0 step size replaces each parameter by one of the same shape with elements p - step*grad, leaves the old tensors untouched, keeps the order, and the new parameters have no gradient; if some parameter has no gradient it panics.", "quantifier": "all modules, step sizes, parameters, gradients", "why_tests_cant": "All sizes.", "anchors": ["src/optim/sgd.rs:sgd_step"]}
{"id": "C50", "title": "sgd_step produces parameters without history", "statement": "After sgd_step the new parameters do not refer to earlier tensors, so memory and backward work per training iteration do not grow.", "quantifier": "all numbers of iterations", "why_tests_cant": "Growth over unboundedly many iterations.", "anchors": ["src/optim/sgd.rs:sgd_step", "src/tensor/rc_tensor.rs:Sub"]}
{"id": "C51", "title": "Tensor equality compares shape and data only", "statement": "== on tensors is true exactly when shapes are equal and elements are pairwise equal; it is an equivalence when element equality is, and ignores gradients and history.", "quantifier": "all tensors", "why_tests_cant": "All sizes.", "anchors": ["src/tensor/raw_tensor.rs:PartialEq", "src/tensor/rc_tensor.rs:RcTensor"]}
{"id": "C52", "title": "deep_clone isolates", "statement": "deep_clone() has the same data and shape, no gradient and no history; backward through it never changes the original's gradient.", "quantifier": "all programs", "why_tests_cant": "All histories.", "anchors": ["src/tensor/tensor_like.rs:deep_clone"]}
{"id": "C53", "title": "A training step uses the true gradient", "statement": "For an Mlp with relu/tanh/no activations whose weight matrices and layer inputs have at most 32 entries, loss = (mlp.forward(x)-y).abs().sum(), backward followed by sgd_step(step) replaces each parameter entry by entry - step * (partial derivative of the loss), away from kinks; k rounds of the loop are k steps of gradient descent.", "quantifier": "all such networks, inputs, targets, and numbers of rounds", "why_tests_cant": "Combines C31, C47, C49 for all sizes.", "anchors": ["src/optim/sgd.rs:sgd_step", "src/nn/feed_foward.rs:forward", "src/tensor/rc_tensor.rs:backward"]}
{"id": "C54", "title": "Gradient tensors behave as plain values", "statement": "In every program that uses the results of grad() as values (no grad/update_grad/zero_grad/backward on a gradient tensor or on something computed from it by a history-recording operation), it cannot be observed that gradients are tensors with a history and a cell of their own: the program panics alike, or all data and gradients are those of the value semantics.", "quantifier": "all programs of that kind", "why_tests_cant": "Quantifies over all programs; the extra tensors are invisible to a test of one program.", "anchors": ["src/tensor/raw_tensor.rs:update_grad", "src/tensor/rc_tensor.rs:grad", "src/tensor/rc_tensor.rs:backward", "src/tensor/autograd/jvp.rs:compute_jvp"]}
{"id": "C55", "title": "grad() is a snapshot", "statement": "grad() returns the gradient as it is at the time of the call; later backward, update_grad or zero_grad calls never change the data of the tensor it returned.", "quantifier": "all programs after the call", "why_tests_cant": "All continuations.", "anchors": ["src/tensor/rc_tensor.rs:grad", "src/tensor/raw_tensor.rs:grad", "src/tensor/raw_tensor.rs:update_grad"]}
{"id": "C56", "title": "Gradients carry no history", "statement": "The tensor returned by grad() has no history: it does not keep other tensors alive, and repeated backward passes use constant memory.", "quantifier": "all programs", "why_tests_cant": "Memory over unboundedly many passes.", "anchors": ["src/tensor/raw_tensor.rs:update_grad", "src/tensor/rc_tensor.rs:Add"]}
{"id": "C57", "title": "Tensors never form reference cycles", "statement": "Without explicit update_grad calls the references between tensors (histories and gradient cells) are never cyclic, even when gradients of gradients are taken, so reference counting frees everything.", "quantifier": "all programs", "why_tests_cant": "A cycle is a leak, which tests do not see; all programs.", "anchors": ["src/tensor/raw_tensor.rs:update_grad", "src/tensor/rc_tensor.rs:sum", "src/tensor/autograd/jvp.rs:compute_jvp", "src/tensor/rc_tensor.rs:RcTensor"]}
{"id": "C58", "title": "A small enough training step decreases the loss", "statement": "Where the loss is differentiable and its gradient is not zero, there is a positive bound such that every training step with a smaller positive step size decreases the loss the loop computes; to first order the change is -step * (sum of the squares of the partial derivatives). Matrices of at most 32 entries.", "quantifier": "all networks (layers, activations, parameters), inputs, targets and small enough step sizes", "why_tests_cant": "A statement about limits over real parameters; tests run one network with one step size.", "anchors": ["src/optim/sgd.rs:sgd_step", "src/main.rs:main", "src/tensor/rc_tensor.rs:backward", "src/nn/feed_foward.rs:forward"]}
{"id": "C59", "title": "Rounding errors of sum, dot and bmm are bounded", "statement": "With IEEE floats of any format, a finite result of sum over n elements differs from the exact sum by at most ((1+u)^(n-1)-1) times the sum of the magnitudes (u half a unit in the last place); for dot and for every entry of bmm and of bmm's gradients by at most ((1+u)^k-1) times the magnitudes of the k products plus k(1+u)^(k-1) half smallest numbers. Sums of bounded magnitude do not overflow.", "quantifier": "all formats (f32, f64), all tensors, all schedules of the backward pass", "why_tests_cant": "Bounds over all float inputs and all schedules; tests compare a few exact results.", "anchors": ["src/tensor/raw_tensor.rs:sum", "src/tensor/functional/misc.rs:dot_raw", "src/tensor/functional/misc.rs:bmm_raw", "src/tensor/functional/misc.rs:bmm_jvp"]}
{"id": "C60", "title": "Training never panics", "statement": "For every network of Linear layers with the library's activations whose shapes fit (any sizes, any number of layers), every batch size >= 1, every step size, every list of batches and every arithmetic (NaN, infinity and overflow included), the loop forward, (res - y).abs().sum(), backward, sgd_step runs without panic; the parameters keep their shapes. In particular main.rs runs to its end for all numbers its generator can draw.", "quantifier": "all networks, sizes, element types and values, batches and numbers of rounds", "why_tests_cant": "Tests run one network for a fixed number of rounds from one seed.", "anchors": ["src/main.rs:main", "src/nn/feed_foward.rs:Mlp::forward", "src/optim/sgd.rs:sgd_step", "src/tensor/rc_tensor.rs:backward"]}
{"id": "C61", "title": "A panic leaves the tensors as they were", "statement": "If a call panics and the panic is caught (or another thread goes on), no tensor and no gradient has changed; later calls work as before.", "quantifier": "all programs, all calls, any number of caught panics", "why_tests_cant": "Needs every panic in every program; the tests contain no caught panic.", "anchors": ["src/tensor/raw_tensor.rs:update_grad", "src/tensor/autograd/jvp.rs:Derivative::compute_jvp", "src/tensor/rc_tensor.rs:backward"]}
{"id": "C62", "title": "The guarantees hold for the whole public interface", "statement": "Programs may call every public function on RcTensors, RawTensors and views, and mix them: no call changes a value the program holds, only update_grad, zero_grad and backward change gradients, programs end, histories have no cycles, and every tensor is well formed and equal to what its history evaluates to.", "quantifier": "all programs over the public interface, any element type", "why_tests_cant": "Needs every sequence of calls over three kinds of values; the tests hardly use RawTensors and views together with gradients.", "anchors": ["src/tensor/raw_tensor.rs:RawTensor", "src/tensor/rc_tensor.rs:RcTensor", "src/tensor/tensor_view.rs:TensorView", "src/tensor/tensor_like.rs:TensorLike"]}
{"id": "C63", "title": "Gradients do not depend on which copy of a tensor is used", "statement": "A tensor gets the same gradient whether the computation uses it directly, through &*x, or through a copy of it.", "quantifier": "all histories that differ in how often a tensor was copied", "why_tests_cant": "Needs a pair of computations of every size; the tests never use &*x in a computation with backward.", "anchors": ["src/tensor/raw_tensor.rs:Clone for RawTensor", "src/tensor/rc_tensor.rs:bmm_rc", "src/tensor/raw_tensor.rs:to_tensor", "src/tensor/autograd/jvp.rs:Derivative::compute_jvp"]}
{"id": "C64", "title": "backward does work proportional to the size of the graph", "statement": "The number of gradient updates a backward pass makes is at most a constant times the number of tensors.", "quantifier": "all histories", "why_tests_cant": "Needs graphs of every size; the tests use graphs of a handful of tensors, where the difference does not show.", "anchors": ["src/tensor/autograd/jvp.rs:Derivative::compute_jvp", "src/tensor/rc_tensor.rs:backward"]}
{"id": "C65", "title": "backward needs bounded stack", "statement": "The calls of compute_jvp nest to a depth that does not depend on how much was computed before.", "quantifier": "all histories, any number of training rounds", "why_tests_cant": "A stack overflow needs histories of tens of thousands of operations; no test is that long.", "anchors": ["src/tensor/autograd/jvp.rs:Derivative::compute_jvp", "src/tensor/rc_tensor.rs:backward", "src/optim/sgd.rs:sgd_step"]}
{"id": "C66", "title": "Control flow does not depend on the data", "statement": "Two programs that make the same calls with the same shapes panic for the same reason, or end in the same variables, shapes, histories and presence of gradients, whatever their data and element types are; more generally every relation that the arithmetic respects is respected by all values and gradients.", "quantifier": "all programs, all data, all pairs of element types, all relations", "why_tests_cant": "Needs pairs of runs on arbitrary data; a test compares one run with one expected result.", "anchors": ["src/tensor/utils.rs:global_index", "src/tensor/functional/element_wise_ops.rs:generic_unary_op", "src/tensor/functional/misc.rs:bmm_raw", "src/tensor/functional/element_wise_ops.rs:jvp_from_diagonal_broadcast", "src/tensor/autograd/jvp.rs:Derivative::compute_jvp", "src/main.rs:main"]}
{"id": "C67", "title": "Wrapping integers are right modulo 2^n", "statement": "In the release profile, with any integer element type, every value and every gradient is the exact one modulo 2^n; where the exact one fits it is the result, even if intermediate results did not fit.", "quantifier": "all integer types, all programs without abs, relu and tanh (which integers do not have)", "why_tests_cant": "Overflow of intermediate results in sums, products and gradients is hardly reachable by small examples, and tests run in the dev profile.", "anchors": ["src/tensor/numeric.rs:numeric_impl", "src/tensor/functional/element_wise_ops.rs:generic_unary_op", "src/tensor/functional/misc.rs:bmm_raw", "src/tensor/autograd/jvp.rs:Derivative::compute_jvp"]}
{"id": "C68", "title": "Checked integers overflow only where a result does not fit", "statement": "In the dev profile, a program on integers panics with an overflow only if one of the values it asks for does not fit its type, and never gives a wrong value.", "quantifier": "all integer types, all programs without abs, relu and tanh", "why_tests_cant": "Depends on the order of all intermediate operations; the tests use small positive numbers.", "anchors": ["src/tensor/numeric.rs:numeric_impl", "src/tensor/rc_tensor.rs:Sub for &RcTensor", "src/tensor/functional/misc.rs:dot", "src/tensor/functional/misc.rs:bmm_raw"]}
{"id": "C69", "title": "Floats compute exactly on whole numbers", "statement": "A program on whole numbers of an IEEE format with p bits (without tanh) computes all values and gradients exactly, if the run on magnitudes stays within 2^p.", "quantifier": "all binary formats, all programs, all whole inputs", "why_tests_cant": "Tests check such results for a few inputs; exactness of every intermediate operation for all programs needs a proof.", "anchors": ["src/tensor/numeric.rs:numeric_impl", "src/tensor/functional/element_wise_ops.rs:generic_unary_op", "src/tensor/functional/misc.rs:bmm_raw", "src/tensor/autograd/jvp.rs:Derivative::compute_jvp"]}
{"id": "C70", "title": "Reference counts are exact and nothing in use is destroyed", "statement": "At every point of a program the strong count of every tensor is the number of references to it from variables in scope and from tensors not yet destroyed; what a variable can reach is never destroyed; destroying the rest changes no result and no panic.", "quantifier": "all programs of calls, clones and ends of variables, all data", "why_tests_cant": "When a tensor is destroyed cannot be seen in a test without instrumentation; the tests keep all variables until the end.", "anchors": ["src/tensor/rc_tensor.rs:RcTensor", "src/tensor/raw_tensor.rs:RawTensor", "src/tensor/autograd/jvp.rs:Derivative", "src/tensor/rc_tensor.rs:update_grad", "src/tensor/rc_tensor.rs:zero_grad"]}
{"id": "C71", "title": "Everything no longer used is destroyed", "statement": "A tensor is alive exactly if a variable in scope leads to it; when all variables have ended, nothing is left.", "quantifier": "all programs of calls, clones and ends of variables, all data", "why_tests_cant": "A leak does not change any result, so no test sees it.", "anchors": ["src/tensor/rc_tensor.rs:RcTensor", "src/tensor/rc_tensor.rs:update_grad", "src/tensor/rc_tensor.rs:backward"]}
{"id": "C72", "title": "Destroying tensors needs bounded stack", "statement": "The destructors nest to a depth that does not depend on the program.", "quantifier": "all programs of calls, clones and ends of variables", "why_tests_cant": "A stack overflow in drop needs histories of tens of thousands of operations; no test is that long.", "anchors": ["src/tensor/rc_tensor.rs:RcTensor", "src/tensor/autograd/jvp.rs:Derivative"]}
{"id": "C73", "title": "Single elements are read and written where they should be", "statement": "set writes exactly the element that get reads at the same index and nothing else; indexing with [] panics exactly where get reports an error; elem, get_first_elem, count, same_shape and broadcastable say what their names say, for tensors and views.", "quantifier": "all shapes, data, indices and windows", "why_tests_cant": "set is only used inside the library, at indices in range; a write that also touched another element or took another index for it would only show for particular shapes.", "anchors": ["src/tensor/raw_tensor.rs:set", "src/tensor/raw_tensor.rs:Index for RawTensor", "src/tensor/tensor_like.rs:elem", "src/tensor/tensor_like.rs:get_first_elem", "src/tensor/tensor_like.rs:same_shape", "src/tensor/tensor_like.rs:broadcastable", "src/tensor/raw_tensor.rs:count"]}
{"id": "C74", "title": "Threads that use gradients at the same time do not disturb each other", "statement": "When several threads call backward, update_grad, zero_grad and grad on shared tensors, every interleaving ends like some order of the calls: no gradient is lost and no thread panics that would not have panicked alone. (False for threads that share a tensor: update_grad takes its lock twice, and an update made in between is lost; true for threads whose graphs have no tensor in common.)", "quantifier": "all numbers of threads, programs of calls, reachable graphs, interleavings and lock policies", "why_tests_cant": "a lost update needs two threads between two particular lines; the test suite uses shared tensors from one thread only, and a stress test would hit the window rarely and unrepeatably.", "anchors": ["src/tensor/raw_tensor.rs:update_grad", "src/tensor/raw_tensor.rs:zero_grad", "src/tensor/rc_tensor.rs:grad", "src/tensor/rc_tensor.rs:backward", "src/tensor/autograd/jvp.rs:compute_jvp"]}
{"id": "C75", "title": "Concurrent use of gradients cannot deadlock", "statement": "Threads that use the gradients of the same tensors never block each other for ever: as long as one has not ended, one can go on; every run is over after at most four lock operations per call; no two threads are in a cell when one of them writes.", "quantifier": "all numbers of threads, programs of calls, interleavings and lock policies", "why_tests_cant": "a deadlock is a property of all interleavings; a test sees one.", "anchors": ["src/tensor/raw_tensor.rs:update_grad", "src/tensor/raw_tensor.rs:zero_grad", "src/tensor/rc_tensor.rs:grad"]}
{"id": "C76", "title": "A computation fails exactly if its shapes do not fit", "statement": "A program of calls that compute tensors (constructors, + - neg * abs relu tanh sum dot bmm, copies and windows) runs without a panic if and only if its shapes follow the rules of a small type system (numpy broadcasting, equal shapes, inner dimensions, windows within bounds), and then every tensor has the shape the rules give. The rules do not look at the data.", "quantifier": "all programs of such calls, over all element types, data and shapes without zero dimensions", "why_tests_cant": "tests try single calls with shapes that fit or do not; that nothing else in any sequence of calls can fail, and that no bad shape slips through, is a statement about all programs.", "anchors": ["src/tensor/rc_tensor.rs:Add for RcTensor", "src/tensor/rc_tensor.rs:Mul for RcTensor", "src/tensor/rc_tensor.rs:bmm", "src/tensor/rc_tensor.rs:sum", "src/tensor/functional/misc.rs:dot", "src/tensor/tensor_view.rs:new", "src/tensor/raw_tensor.rs:new", "src/tensor/functional/element_wise_ops.rs:generic_binop_raw"]}
{"id": "C77", "title": "Which computations backward can differentiate", "statement": "backward succeeds if and only if its root has one element and a history and the shape of every gradient it passes down fits the operation that receives it, by rules that only name shapes (add, neg, relu: one row, or one number; abs: one row; tanh: one row, or deeper with leading ones; bmm of matrices: one row, of a higher rank: only a left factor of one element; dot: a number, or the operands' own shape). Otherwise it panics. So whether it works does not depend on data or on earlier gradients.", "quantifier": "all reachable heaps without empty tensors, all roots", "why_tests_cant": "which graphs pass depends on interactions between rules (dot hands on gradients of the operand's shape, which neg, abs, bmm below it refuse unless it is one row); tests cover a few fixed graphs.", "anchors": ["src/tensor/autograd/jvp.rs:compute_jvp", "src/tensor/rc_tensor.rs:backward", "src/tensor/functional/element_wise_ops.rs:generic_unary_jvp", "src/tensor/functional/element_wise_ops.rs:generic_binop_jvp", "src/tensor/functional/element_wise_ops.rs:abs_jvp", "src/tensor/autograd/jvp.rs:jvp_from_full_jacobians", "src/tensor/functional/misc.rs:bmm_jvp", "src/tensor/functional/misc.rs:dot_jvp"]}
{"id": "C78", "title": "Products of batches of matrices can be differentiated", "statement": "bmm takes a batch of matrices on the left, and its result can be differentiated. (False: backward panics for every root computed from a bmm whose left factor has three or more dimensions and more than one element. The sum of a product of two leaves of that kind can be differentiated exactly if the left factor has a single element.)", "quantifier": "all reachable heaps without empty tensors, all roots computed from such a product", "why_tests_cant": "the tests differentiate bmm of matrices only; that no graph with a batch can be differentiated is a statement about all graphs.", "anchors": ["src/tensor/functional/misc.rs:bmm_jvp", "src/tensor/functional/misc.rs:bmm_raw", "src/tensor/rc_tensor.rs:backward"]}
{"id": "C79", "title": "Floats stay within a running error bound", "statement": "Run a program, including backward passes, on triples (exact value, error bound, magnitude bound), where every operation adds the error of one rounding. If the signs of the inputs of abs and relu are known, the program on floats of any precision succeeds, and every value and gradient it computes is finite and within the bound of what exact arithmetic would give; gradients are then within the bound of the true derivatives. The same holds for the training program of main.rs. The bounds can be computed with rational intervals. (False without known signs: relu of a sum that rounds to zero gets derivative 1 instead of 0.)", "quantifier": "all programs, all input data with error bounds, all float formats, every tanh within a given error; the training program for all sizes, rounds and weights", "why_tests_cant": "tests compare a few floats with expected values and a tolerance; how far rounding carries through a whole program is a statement about all programs and all data.", "anchors": ["src/tensor/functional/element_wise_ops.rs:generic_unary_op", "src/tensor/functional/misc.rs:bmm_raw", "src/tensor/functional/element_wise_ops.rs:relu", "src/tensor/rc_tensor.rs:backward", "src/main.rs:main"]}
{"id": "C80", "title": "Whole programs do not depend on the thread schedule", "statement": "Let every matrix product and every backward pass of one, anywhere in a program or in the training program of main.rs, go as any run of its concurrent jobs goes. With an exact addition every run ends in the same values and gradients as the sequential reading. With any arithmetic, floats included, every run makes the same tensors, histories, shapes and gradients, or panics, as every other; a run that ends always exists; and with one worker the result is that of the sequential reading, bit for bit. (False for floats and two workers: the same program has two different gradients.)", "quantifier": "all programs, element types, data, numbers of workers and schedules", "why_tests_cant": "a test sees the few schedules the machine happens to choose, and compares with a tolerance or on small integers.", "anchors": ["src/tensor/functional/misc.rs:bmm_raw", "src/tensor/functional/misc.rs:bmm_jvp", "src/tensor/rc_tensor.rs:backward", "src/tensor/autograd/jvp.rs:compute_jvp", "src/main.rs:main"]}
{"id": "C81", "title": "Rounding errors are bounded whatever the thread schedule", "statement": "Run a program, including backward passes, on numbers that carry, besides the exact value, the sum of the magnitudes and of the errors of their terms and the number of additions; this addition is associative and commutative. If the signs of the inputs of abs and relu are known, then under every thread schedule and number of workers the program on floats of any precision succeeds, and every value and gradient is finite and within (1+u)^n(M+e)-M of the exact one; two schedules differ by at most twice that; gradients are within it of the true derivatives. The same holds for the training program of main.rs. The bounds can be computed with rational intervals. If all numbers are whole and stay within 2^prec, every schedule gives the exact result.", "quantifier": "all programs, input data with error bounds, float formats, numbers of workers, schedules and every tanh within a given error; the training program for all sizes, rounds and weights", "why_tests_cant": "the order in which the messages of a backward pass are added up is the machine's choice; a test sees one of them and cannot bound the others.", "anchors": ["src/tensor/functional/misc.rs:bmm_jvp", "src/tensor/functional/misc.rs:bmm_raw", "src/tensor/rc_tensor.rs:backward", "src/tensor/functional/element_wise_ops.rs:relu", "src/main.rs:main"]}
{"id": "C82", "title": "At kinks backward differentiates the computation with its branches kept", "statement": "Where abs or relu meet their kink there is no derivative. For every root and tensor that can be differentiated, the gradients backward leaves are the partial derivatives of the recorded computation in which every abs and relu goes on using, entry by entry, the branch it took (abs: x where x>=0, relu: 0 where x<0). Where no input of an abs or relu is 0, that computation agrees with the recorded one near the point, and the gradients are the true derivatives. (It is false that the gradient is the derivative whenever there is one: |x|-|-x| is constant but its gradient at 0 is 2.)", "quantifier": "all programs, roots, tensors and real data", "why_tests_cant": "a test at a kink pins one number; which function's derivative it is, for all graphs, is a statement about limits.", "anchors": ["src/tensor/functional/element_wise_ops.rs:abs_jvp", "src/tensor/functional/element_wise_ops.rs:relu", "src/tensor/rc_tensor.rs:backward"]}
{"id": "C83", "title": "Training works from any parameters, kinks included", "statement": "One round of the training loop succeeds from any parameters, also where the loss has no derivative, and moves every parameter by -step times the derivative of the loss in which the activations and the absolute values keep the branches they take there; that derivative always exists. Any number of rounds on any samples never fails and consists of such steps. At the branches taken that loss is the loss. (False: a network with loss 0 does not stay there; the step is taken along the right-hand branch of abs, and the loss becomes positive.)", "quantifier": "all networks with matrices of at most 32 entries, activations none/relu/tanh/abs/neg, samples, step sizes, numbers of rounds", "why_tests_cant": "parameters at kinks are a set of measure zero that random tests miss, and the statement is about derivatives for all networks.", "anchors": ["src/optim/sgd.rs:sgd_step", "src/main.rs:main", "src/tensor/rc_tensor.rs:backward", "src/tensor/functional/element_wise_ops.rs:abs_jvp", "src/nn/feed_foward.rs:forward"]}
{"id": "C84", "title": "Training a linear layer approaches the best possible loss", "statement": "For a network of one layer without an activation, trained by the loop on any samples with any positive step size, from any parameters: compared with any other parameters the sum of the losses of the rounds exceeds that of the other parameters by at most D/(2 step) + step/2 times the sum of the squared gradient bounds (D: squared distance of the initial parameters from the others). So on one sample, for every eps, every small enough step and enough rounds, some round has a loss at most eps above that of any other parameters.", "quantifier": "all layer sizes with matrices of at most 32 entries, samples, parameters, positive step sizes and numbers of rounds", "why_tests_cant": "a statement about all runs of any length compared with all parameters; tests train one network for a few rounds.", "anchors": ["src/optim/sgd.rs:sgd_step", "src/main.rs:main", "src/tensor/rc_tensor.rs:backward", "src/nn/feed_foward.rs:forward"]}
{"id": "C85", "title": "backward depends only on what its root was computed from", "statement": "In two reachable states in which the history of the root (all tensors it was computed from, with their values, operations and gradients so far) is the same up to the names of the tensors, backward panics with the same panic or leaves the same gradients on that history, whatever else is in the two states. So tensors made in between do not matter, and the exact conditions for success (C77) and the gradient theorem (C31) hold with their conditions on the history of the root only: empty tensors and products of batches may exist elsewhere.", "quantifier": "all number types (gradient: real numbers), pairs of reachable states, renamings, roots", "why_tests_cant": "compares all pairs of program states with a common history; tests only call backward right after building one graph.", "anchors": ["src/tensor/rc_tensor.rs:backward", "src/tensor/autograd/jvp.rs:compute_jvp", "src/tensor/functional/element_wise_ops.rs:add_jvp", "src/tensor/functional/misc.rs:bmm_jvp"]}
{"id": "C86", "title": "Whole programs compute with machine words what they compute with unbounded numbers", "statement": "Every function of the crate that calculates with usize, run with words that overflow: with overflow checks a program does exactly what it does with unbounded numbers, or panics because of an overflow; if it returns with checks, it returns the same without them. If no tensor of the program is empty or has more than B elements and B*B is less than the number of words (2^31 elements with 64 bits), nothing overflows in the forward and backward passes, in both kinds of build. Without checks, a program can return where the mathematical one panics: false in general, for every word length.", "quantifier": "all number types, word lengths, programs (small tensors: without update_grad and product with a view)", "why_tests_cant": "overflow needs tensors with billions of elements; the claim covers every intermediate product and index of every program.", "anchors": ["src/tensor/utils.rs:global_index", "src/tensor/utils.rs:increment_index", "src/tensor/raw_tensor.rs:new", "src/tensor/functional/element_wise_ops.rs:jvp_from_diagonal_broadcast", "src/tensor/functional/misc.rs:bmm_jvp", "src/tensor/autograd/jvp.rs:compute_jvp"]}
{"id": "C87", "title": "The loops as they stand in the source compute what the model says", "statement": "The statements of the crate's calculating functions - the odometer and index arithmetic of utils.rs, constructors, get/set, the two iterators, materialisation, views with their sum, reshape and comparison, broadcasting, element-wise operations, the rules of derivatives, products of vectors and matrices - written down statement by statement in a small imperative language (mutable variables, shadowing, while/for/loop, break/continue/return, &mut parameters, split_at_mut), compute exactly the functions of the model: same results, same panics, and the same changes to &mut arguments, for machine words with and without overflow checks and for unbounded numbers. With overflow checks, whatever bmm_raw returns is the matrix product and whatever generic_binop_raw returns is the broadcast sum. So too for bmm_jvp with SplitArrayWriter, its tasks run in order and its channels holding what was sent until the receivers run: it returns what the model returns and panics when the model panics.", "quantifier": "all arguments, number types, closures, word lengths above the rank; loops given enough turns", "why_tests_cant": "off-by-one errors in loop bounds, carries, shadowed variables and early exits depend on shape and rank; tests run a few shapes, the claim covers every one.", "anchors": ["src/tensor/utils.rs:increment_index", "src/tensor/utils.rs:reset_trailing_indices", "src/tensor/utils.rs:global_index", "src/tensor/utils.rs:tensor_index_inplace", "src/tensor/utils.rs:next", "src/tensor/functional/element_wise_ops.rs:generic_binop_raw", "src/tensor/functional/element_wise_ops.rs:jvp_from_diagonal_broadcast", "src/tensor/functional/element_wise_ops.rs:generic_binop_jvp", "src/tensor/functional/misc.rs:bmm_raw", "src/tensor/functional/misc.rs:bmm_jvp", "src/tensor/functional/misc.rs:start_then_join"]}
{"id": "C88", "title": "Whole programs run by the source's statements do what the model says, gradients included", "statement": "A program of API calls whose every calculation - constructors, forward operations, views, sums of gradients, and each rule that backward applies, with the closures its operation passes - is carried out by running the statements of the crate (C87) ends, given enough turns for its loops; with unbounded numbers it returns exactly when the model of C31-C86 does and the same state; with overflow checks whatever it returns is what it returns without them and what the model returns, and the only other ending of a program that runs in the model is the panic of an overflowing usize, which does not happen on words wide enough for the program: words of w bits suffice while no tensor is empty or has more than 2^b elements with 2b < w (C86). So with real numbers the statements of the source leave derivatives in the gradients of a program of differentiable calls.", "quantifier": "all programs, number types, word lengths; all closures of the crate", "why_tests_cant": "a disagreement between a rule and the place that calls it, or between debug and release builds, shows for particular graphs and shapes only; the claim covers every program and every word length.", "anchors": ["src/tensor/autograd/jvp.rs:compute_jvp", "src/tensor/rc_tensor.rs:backward", "src/tensor/functional/element_wise_ops.rs:add_jvp", "src/tensor/functional/element_wise_ops.rs:relu", "src/tensor/functional/misc.rs:bmm_jvp", "src/tensor/functional/misc.rs:dot", "src/tensor/raw_tensor.rs:update_grad", "src/tensor/raw_tensor.rs:sum", "src/tensor/tensor_view.rs:new"]}
{"id": "C89", "title": "Training and main.rs run by the source's statements do what the model says", "statement": "A network's forward pass, the loss, backward, sgd_step and the loop around them, with every calculation carried out by running the statements of the crate (C87), return with unbounded numbers and enough turns exactly when the model's training loop (C53, C60) does and with the same heap and network. With overflow checks whatever they return, however many turns they had, is what they return without the checks and what the model returns; a run that succeeds in the model succeeds or panics because a usize overflowed, and succeeds on words wide enough. So over the real numbers the statements of the source carry out gradient descent, and main.rs runs to its end on words wide enough for all numbers its generator delivers; while all tensors are scalars or matrices of at most D rows and columns, more than D^4 words suffice for any number of rounds, so main.rs runs through on a 64-bit machine.", "quantifier": "all networks with the crate's activations or none, steps, heaps, lists of samples, number types, word lengths and numbers of turns; all sizes in main.rs", "why_tests_cant": "training is tested on one network with one seed; an error in how a layer, a rule and the optimiser fit together shows for other sizes, activations or numbers of rounds.", "anchors": ["src/nn/linear.rs:forward", "src/nn/feed_foward.rs:forward", "src/nn/feed_foward.rs:update_params", "src/optim/sgd.rs:sgd_step", "src/tensor/rc_tensor.rs:backward", "src/main.rs:main"]}
