{"id": "C01", "title": "Element addressing is row-major, in bounds and injective", "statement": "For a Tensor of d x h x w elements (and a Matrix of h x w), t(i,j,k) with in-range indices always denotes an element inside the tensor's own storage, different index triples denote different elements, every stored element is reached by some triple, and t(i,j,k) is the same element as the flat t((i*h+j)*w+k).", "quantifier": "every shape whose element count fits size_t, every in-range index tuple", "why_tests_cant": "an off-by-one in a stride only shows for particular shapes; the index arithmetic is modulo 2^64", "anchors": ["include/Trixy/Lique/Tensor.hpp:at", "include/Trixy/Lique/Matrix.hpp:at", "include/Trixy/Lique/TensorBase.hpp:at", "include/Trixy/Lique/Shape.hpp:Shape"]}
{"id": "C02", "title": "Writing one element changes that element only", "statement": "After t(i,j,k) = v, reading t(i,j,k) gives v, every other element of t and every element of every other object is unchanged, and no element outside the allocation is touched.", "quantifier": "every shape, every in-range index, every value, every memory contents", "why_tests_cant": "needs all pairs of indices and all aliasing situations", "anchors": ["include/Trixy/Lique/Tensor.hpp:operator()", "include/Trixy/Lique/Matrix.hpp:operator()", "include/Trixy/Lique/TensorBase.hpp:operator()"]}
{"id": "C03", "title": "Copy-constructing a Tensor yields an independent equal copy", "statement": "Tensor b(a) has the same shape and elements as a, owns fresh storage, leaves a unchanged; later writes to one are not visible in the other.", "quantifier": "every shape and contents", "why_tests_cant": "aliasing must be excluded for all later writes", "anchors": ["include/Trixy/Lique/Tensor.hpp:Tensor(const Tensor&)"]}
{"id": "C04", "title": "Copy-constructing a Matrix yields an independent equal copy", "statement": "Matrix b(a) has the same number of rows, columns, size and elements as a and owns fresh storage - however a obtained its shape (sized constructor, or default constructor followed by resize).", "quantifier": "every way of creating a matrix, every shape and contents", "why_tests_cant": "depends on the history of the source object", "anchors": ["include/Trixy/Lique/Matrix.hpp:Tensor(const Tensor&)", "include/Trixy/Lique/Matrix.hpp:resize"]}
{"id": "C05", "title": "Copy-constructing a Vector yields an independent equal copy", "statement": "Vector b(a) has a.size() elements equal to those of a, in fresh storage.", "quantifier": "every size and contents", "why_tests_cant": "universally quantified deep-copy claim", "anchors": ["include/Trixy/Lique/Vector.hpp:Tensor(const Tensor&)"]}
{"id": "C06", "title": "Copy assignment yields an independent equal copy", "statement": "After a = b (Vector, Matrix or Tensor, any prior sizes of a and b) a has b's size and elements, storage distinct from b's, a's previous storage is released, b is unchanged and no out-of-bounds access happens; a = a changes nothing.", "quantifier": "every pair of prior sizes, every contents", "why_tests_cant": "the failure depends on the relation between the two prior sizes; out-of-bounds access may go unnoticed in a test", "anchors": ["include/Trixy/Lique/Tensor.hpp:operator=(const Tensor&)", "include/Trixy/Lique/Matrix.hpp:operator=(const Tensor&)", "include/Trixy/Lique/Vector.hpp:operator=(const Tensor&)"]}
{"id": "C07", "title": "Move construction and move assignment transfer the storage", "statement": "After a move the target refers to exactly the source's former storage and size, no element is copied, allocated or lost, the source no longer refers to it, and the target's previous storage is released; self-move is a no-op.", "quantifier": "every source and target state", "why_tests_cant": "absence of leak/double ownership is a history property", "anchors": ["include/Trixy/Lique/Vector.hpp", "include/Trixy/Lique/Matrix.hpp", "include/Trixy/Lique/Tensor.hpp", "include/Trixy/Lique/TensorBase.hpp"]}
{"id": "C08", "title": "No history of tensor operations double-frees, leaks or shares storage", "statement": "For every sequence of constructions, copies, moves, assignments, resizes, reshapes, swaps, fills and destructions of owning Vector/Matrix/Tensor objects: no storage is released twice or used after release, two live objects never own the same storage, every live allocation is owned by a live object, and destroying all objects leaves no allocation.", "quantifier": "every finite sequence of lifecycle operations on any number of objects", "why_tests_cant": "quantifies over all histories", "anchors": ["include/Trixy/Lique/Vector.hpp", "include/Trixy/Lique/Matrix.hpp", "include/Trixy/Lique/Tensor.hpp", "include/Trixy/Lique/TensorBase.hpp:swap"]}
{"id": "C09", "title": "resize gives storage and shape that agree", "statement": "After resize to given dimensions, shape() reports these dimensions, size() is their product, exactly that many elements are allocated, the former storage is released, and shape() of the result is the shape the sized constructor would give.", "quantifier": "every previous state, every dimensions fitting size_t", "why_tests_cant": "depends on all prior states", "anchors": ["include/Trixy/Lique/Vector.hpp:resize", "include/Trixy/Lique/Matrix.hpp:resize", "include/Trixy/Lique/Tensor.hpp:resize"]}
{"id": "C10", "title": "reshape keeps the elements", "statement": "reshape to dimensions with the same element count changes no element and no storage: the flat sequence of elements is the same before and after and size() is unchanged; t(i,j,k) afterwards reads the flat element at the new row-major position.", "quantifier": "every shape pair with equal volume", "why_tests_cant": "all shapes", "anchors": ["include/Trixy/Lique/Tensor.hpp:reshape", "include/Trixy/Lique/Matrix.hpp:reshape", "include/Trixy/Lique/Vector.hpp:reshape"]}
{"id": "C11", "title": "Element-wise operations act on every element once and nothing else, even when operands alias", "statement": "fill, copy, apply, add, sub, mul, join (member functions and the Linear ones, in-place and three-operand) set element i of the result to the operation applied to the operands' elements i as they were before the call, for every i; nothing outside the result range changes. This also holds when an operand is the result itself (x.add(x), linear.mul(g,g,g)).", "quantifier": "every length, every contents, every scalar arithmetic, exact aliasing or disjoint operands", "why_tests_cant": "aliasing and frame conditions are universally quantified", "anchors": ["include/Trixy/Lique/TensorBase.hpp", "include/Trixy/Lique/Linear.hpp", "include/Trixy/Lique/Detail/FunctionDetail.hpp"]}
{"id": "C12", "title": "Value-returning arithmetic on const tensors returns a fresh result", "statement": "For const tensors a and b of equal non-zero size, a.add(b), a.sub(b), a.mul(b), a.join(v), a.apply(f) return a new tensor holding the element-wise result and leave a and b unchanged, without undefined behaviour.", "quantifier": "every non-empty size, every contents", "why_tests_cant": "claim over all sizes/contents", "anchors": ["include/Trixy/Lique/TensorBase.hpp:add(const Tensor&) const"]}
{"id": "C13", "title": "Views share storage and own nothing", "statement": "A VectorView/MatrixView/TensorView over a tensor's data sees every element write to the tensor and vice versa, and constructing, copying, assigning, reshaping or destroying views never allocates, releases or modifies elements.", "quantifier": "every shape, every sequence of view operations", "why_tests_cant": "history property", "anchors": ["include/Trixy/Lique/Vector.hpp", "include/Trixy/Lique/Matrix.hpp", "include/Trixy/Lique/Tensor.hpp", "include/Trixy/Range/View.hpp"]}
{"id": "C14", "title": "Row-vector by matrix product", "statement": "linear.dot(result, v, M) sets result(j) to the sum over i (in index order, starting from 0) of v(i)*M(i,j) for each column j, whatever result held before, and changes nothing else.", "quantifier": "every size, every contents, any scalar arithmetic", "why_tests_cant": "all shapes/contents", "anchors": ["include/Trixy/Lique/Linear.hpp:dot(Vector1&,const Vector2&,const Matrix&)"]}
{"id": "C15", "title": "Matrix by column-vector product", "statement": "linear.dot(result, M, v) sets result(i) to the sum over j in order of M(i,j)*v(j), whatever result held before, and changes nothing else.", "quantifier": "every size, every contents, any scalar arithmetic", "why_tests_cant": "all shapes/contents", "anchors": ["include/Trixy/Lique/Linear.hpp:dot(Vector1&,const Matrix&,const Vector2&)"]}
{"id": "C16", "title": "Matrix product", "statement": "linear.dot(A,B) returns the matrix with element (i,j) = sum over r in order of A(i,r)*B(r,j); linear.dot(result,A,B) sets result to that product whatever result held before.", "quantifier": "every compatible shapes and contents", "why_tests_cant": "all shapes/contents/previous contents", "anchors": ["include/Trixy/Lique/Linear.hpp:dot(Matrix1&,const Matrix2&,const Matrix3&)"]}
{"id": "C17", "title": "Outer product", "statement": "linear.tensordot(result,c,r) sets result(i,j) = c(i)*r(j) for all i,j and changes nothing else.", "quantifier": "every sizes and contents", "why_tests_cant": "all shapes", "anchors": ["include/Trixy/Lique/Linear.hpp:tensordot"]}
{"id": "C18", "title": "Transpose", "statement": "linear.transpose(M) has element (i,j) = M(j,i) for every i,j, and transposing twice gives back M exactly.", "quantifier": "every shape, every contents", "why_tests_cant": "all shapes (square-only tests miss swapped strides)", "anchors": ["include/Trixy/Lique/Linear.hpp:transpose"]}
{"id": "C19", "title": "Matrix inversion", "statement": "For every invertible N x N matrix A (exact arithmetic) linear.inverse(A) returns B with B*A = A*B = identity, never dividing by zero.", "quantifier": "every N and every non-singular real matrix", "why_tests_cant": "pivoting paths depend on the values; infinitely many matrices", "anchors": ["include/Trixy/Lique/Linear.hpp:inverse"]}
{"id": "C20", "title": "Inner product", "statement": "linear.dot(u,v) returns the sum over i in order of u(i)*v(i); nothing is written.", "quantifier": "every length and contents", "why_tests_cant": "all lengths", "anchors": ["include/Trixy/Lique/Linear.hpp:dot(const Vector1&,const Vector2&)"]}
{"id": "C21", "title": "argmax/argmin/max/min return the first extremum", "statement": "argmax (argmin) of a non-empty range returns the smallest index whose element is not exceeded by (does not exceed) any other element; max/min return that element; the range is not modified; on an empty range argmax/argmin return 0.", "quantifier": "every length, every contents under a strict weak order", "why_tests_cant": "ties and positions are universally quantified", "anchors": ["include/Trixy/Lique/Tool.hpp:search", "include/Trixy/Lique/Tool.hpp:argmax", "include/Trixy/Lique/Tool.hpp:argmin"]}
{"id": "C22", "title": "Axis search finds the extremum of each column / row", "statement": "argmax/argmin(matrix, Axis::X) returns for every column the first row index of its extremum, and with Axis::Y for every row the first column index of its extremum.", "quantifier": "every matrix shape and contents", "why_tests_cant": "all shapes and contents", "anchors": ["include/Trixy/Lique/Tool.hpp:search(const Matrix&,Axis,Binary)"]}
{"id": "C23", "title": "accumulate, mean and std compute the statistics of the whole range", "statement": "accumulate returns init plus all elements in order; mean(range) the arithmetic mean; std(range) the square root of the mean squared deviation from the mean (divisor n-1 when unbiased); exact arithmetic, non-empty range.", "quantifier": "every length and contents", "why_tests_cant": "all lengths", "anchors": ["include/Trixy/Lique/Tool.hpp:accumulate", "include/Trixy/Lique/Tool.hpp:mean", "include/Trixy/Lique/Tool.hpp:std"]}
{"id": "C24", "title": "concat joins its operands in order", "statement": "concat(a,b,...) and concat(container of tensors) return a tensor whose elements are those of the operands one after another.", "quantifier": "every number of operands, every sizes and contents", "why_tests_cant": "all sizes", "anchors": ["include/Trixy/Lique/Tool.hpp:concat"]}
{"id": "C25", "title": "block_loop visits exactly the elements of the rectangle", "statement": "block_loop(A,B,width,f) applies f exactly once, in row-major order, to each element of the rectangle with top-left element A and bottom-right element B inside a matrix of the given width, and to nothing else.", "quantifier": "every matrix width, every rectangle", "why_tests_cant": "all rectangles, including one-column and full-width ones", "anchors": ["include/Trixy/Lique/Tool.hpp:block_loop", "include/Trixy/Lique/Detail/FunctionDetail.hpp:block_for_each"]}
{"id": "C26", "title": "multinomial samples a valid index by cumulative probability", "statement": "multinomial(p, gen, max) of a non-empty range returns an index in range: the first index whose cumulative sum exceeds gen()/max, or the index of the largest element if none does.", "quantifier": "every length, contents and generator value", "why_tests_cant": "depends on the random value", "anchors": ["include/Trixy/Lique/Tool.hpp:multinomial"]}
{"id": "C27", "title": "Container behaves as a sequence under every operation history", "statement": "Under any sequence of emplace_back, pop_back (when non-empty), resize, reserve and element writes on a container built by the default, sized or list constructor, the contents equal those of the same operations on a mathematical list; size() <= capacity(), and no element outside the allocation is touched.", "quantifier": "every finite operation sequence", "why_tests_cant": "history property", "anchors": ["include/Trixy/Container/Container.hpp:emplace_back", "include/Trixy/Container/Container.hpp:resize", "include/Trixy/Container/Container.hpp:reserve", "include/Trixy/Container/Container.hpp:pop_back"]}
{"id": "C28", "title": "A copied Container is usable like the original", "statement": "A container obtained by copy construction or copy assignment holds equal elements in separate storage and afterwards supports every operation history without out-of-bounds access.", "quantifier": "every source state and every later operation sequence", "why_tests_cant": "the failure depends on capacity versus size and a later append", "anchors": ["include/Trixy/Container/Container.hpp:Container(const Container&)", "include/Trixy/Container/Container.hpp:operator="]}
{"id": "C29", "title": "Capacity only grows when needed and reserved appends do not move elements", "statement": "reserve(n) makes capacity at least n without changing contents; emplace_back while size()<capacity() keeps the storage (pointers to elements stay valid); when full the capacity grows to 2*capacity+1, so the number of reallocations in n appends is logarithmic.", "quantifier": "every operation sequence", "why_tests_cant": "amortised bound over all histories", "anchors": ["include/Trixy/Container/Container.hpp:reserve", "include/Trixy/Container/Container.hpp:emplace_back"]}
{"id": "C30", "title": "A moved-from Container is empty", "statement": "After moving a container away, the source reports size 0 / empty and can be appended to again.", "quantifier": "every source state", "why_tests_cant": "history property", "anchors": ["include/Trixy/Container/Container.hpp:Container(Container&&)", "include/Trixy/Container/Container.hpp:operator=(Container&&)"]}
{"id": "C31", "title": "Appending a container's own element is safe", "statement": "c.emplace_back(c[i]) appends a copy of element i, also when the append reallocates.", "quantifier": "every state and index", "why_tests_cant": "only fails when size equals capacity", "anchors": ["include/Trixy/Container/Container.hpp:emplace_back", "include/Trixy/Container/Container.hpp:reserve"]}
{"id": "C32", "title": "Iterator arithmetic reaches the indicated element", "statement": "*(begin()+n) is element n for every n < size().", "quantifier": "every container and n", "why_tests_cant": "all n", "anchors": ["include/Trixy/Container/Container.hpp:iterator::operator+"]}
{"id": "C33", "title": "Activation derivatives are the derivatives of the activations", "statement": "For each built-in scalar activation (identity, relu, elu, lrelu, selu, sigmoid, tanh, softsign, softplus, swish, mod_relu, mod_tanh), df(x) is the derivative of f at x for every real x where f is differentiable (every x except 0 for the piecewise ones with a kink; 0 and 1 for mod_relu).", "quantifier": "every real x", "why_tests_cant": "an identity between real functions", "anchors": ["include/Trixy/Neuro/Functional/Function/ActivationLess.hpp", "include/Trixy/Neuro/Functional/Function/Activation.hpp"]}
{"id": "C34", "title": "GELU derivative is the derivative of GELU", "statement": "gelu's df(x) is the derivative of gelu's f at x (up to the rounding of the printed constants) for every real x.", "quantifier": "every real x", "why_tests_cant": "pointwise checks at 0 and +-1 pass", "anchors": ["include/Trixy/Neuro/Functional/Function/ActivationLess.hpp:gelu_derived"]}
{"id": "C35", "title": "Activation ranges and monotonicity", "statement": "sigmoid maps into (0,1), tanh and softsign into (-1,1), relu and softplus are non-negative, relu/elu/lrelu/selu/sigmoid/tanh/softsign/softplus/mod_relu/mod_tanh are non-decreasing, on all reals.", "quantifier": "every real x (and every pair x<y)", "why_tests_cant": "infinite domain", "anchors": ["include/Trixy/Neuro/Functional/Function/ActivationLess.hpp"]}
{"id": "C36", "title": "SoftMax yields a probability distribution", "statement": "For every non-empty input, SoftMax outputs are positive, sum to 1, are at most 1, preserve the order of the inputs, do not change when a constant is added to all inputs, agree with the unshifted formula exp(x_i)/sum exp(x_j); the largest exponent evaluated is 0.", "quantifier": "every length and every real input", "why_tests_cant": "all inputs", "anchors": ["include/Trixy/Neuro/Functional/Function/Activation.hpp:softmax"]}
{"id": "C37", "title": "Activations may be applied in place", "statement": "f(x,x) and df(x,x) produce the same values as writing to a separate buffer, for every built-in activation, and only the result range changes.", "quantifier": "every activation, length and contents", "why_tests_cant": "aliasing over all inputs", "anchors": ["include/Trixy/Neuro/Functional/Function/Detail/MacroScope.hpp", "include/Trixy/Neuro/Functional/Function/Activation.hpp"]}
{"id": "C38", "title": "Loss derivatives are the partial derivatives of the losses", "statement": "For MSE, MSLE and LC, component i of df(y_true,y_pred) is the partial derivative of f with respect to y_pred(i), for all lengths and all real inputs in the loss's domain; likewise for the stand-alone categorical_cross_entropy_derived.", "quantifier": "every length, every target/prediction", "why_tests_cant": "partial derivatives for all dimensions", "anchors": ["include/Trixy/Neuro/Functional/Function/Loss.hpp"]}
{"id": "C39", "title": "MAE derivative points in the direction of increasing error", "statement": "component i of MAE's df is the partial derivative of MAE's f w.r.t. y_pred(i) wherever y_pred(i) differs from y_true(i).", "quantifier": "every length, every target/prediction", "why_tests_cant": "sign claim for all inputs", "anchors": ["include/Trixy/Neuro/Functional/Function/Loss.hpp:mean_absolute_error_derived"]}
{"id": "C40", "title": "SoftMax with CCE or NLL back-propagates the true gradient", "statement": "With a SoftMax output layer, the product of the activation derivative and the loss derivative that training feeds back is the gradient of the cross entropy (targets summing to one) - and of the negative log likelihood (one-hot targets) - with respect to the pre-activations.", "quantifier": "every number of classes, every pre-activation, every such target", "why_tests_cant": "gradient identity for all dimensions", "anchors": ["include/Trixy/Neuro/Functional/Function/Loss.hpp", "include/Trixy/Neuro/Functional/Function/Activation.hpp:softmax_derived"]}
{"id": "C41", "title": "Sigmoid with BCE back-propagates the true gradient", "statement": "With a Sigmoid output layer and BCE loss, the quantity fed back (df of the loss times df of the activation) is the derivative of the binary cross entropy with respect to the pre-activation.", "quantifier": "every target in [0,1], every real pre-activation", "why_tests_cant": "identity between real functions", "anchors": ["include/Trixy/Neuro/Functional/Function/Loss.hpp:binary_cross_entropy_derived_sigmoid", "include/Trixy/Neuro/Network/Layer/FullyConnected.hpp:backward"]}
{"id": "C42", "title": "Losses are zero exactly on perfect predictions", "statement": "MSE, MAE and LC are non-negative for every input and zero if and only if prediction equals target; MSLE likewise on inputs greater than -1.", "quantifier": "every length, target and prediction", "why_tests_cant": "infinite domain", "anchors": ["include/Trixy/Neuro/Functional/Function/Loss.hpp"]}
{"id": "C43", "title": "GradDescent and StoGradDescent apply their update rule", "statement": "update(param,grad) replaces each parameter w by w - lr*g (GradDescent), respectively alpha*w - lr*g with alpha = 1 - lr*decay fixed at construction (StoGradDescent), and touches no other parameter.", "quantifier": "every length, contents, learning rate", "why_tests_cant": "frame + all contents", "anchors": ["include/Trixy/Neuro/Functional/Optimizer/GradDescent.hpp", "include/Trixy/Neuro/Functional/Optimizer/StoGradDescent.hpp"]}
{"id": "C44", "title": "Momentum follows the velocity recursion over every training history", "statement": "Over any sequence of update calls on any set of parameter tensors, each tensor follows v0=0, v(t+1)=momentum*v(t)-lr(t)*g(t), w(t+1)=w(t)+v(t+1), with the learning rate in force at each call.", "quantifier": "every sequence of updates, tensors, gradients", "why_tests_cant": "history property", "anchors": ["include/Trixy/Neuro/Functional/Optimizer/Momentum.hpp", "include/Trixy/Neuro/Functional/Optimizer/Interface.hpp:get"]}
{"id": "C45", "title": "Nestorov follows its recursion over every training history", "statement": "Over any sequence of update calls: v(t+1)=momentum*v(t)-lr*g(t), w(t+1)=w(t)-lr*g(t)+momentum*v(t+1), per tensor.", "quantifier": "every sequence of updates", "why_tests_cant": "history property", "anchors": ["include/Trixy/Neuro/Functional/Optimizer/Nestorov.hpp"]}
{"id": "C46", "title": "AdaGrad follows its recursion and has bounded steps", "statement": "Per tensor s(t+1)=s(t)+g^2, w(t+1)=w(t)-lr*g/sqrt(1e-9+s(t+1)); hence every step is at most lr in magnitude.", "quantifier": "every sequence of updates", "why_tests_cant": "history property", "anchors": ["include/Trixy/Neuro/Functional/Optimizer/AdaGrad.hpp"]}
{"id": "C47", "title": "RMSProp follows its recursion and has bounded steps", "statement": "Per tensor s(t+1)=beta*s(t)+(1-beta)*g^2, w(t+1)=w(t)-lr*g/sqrt(1e-9+s(t+1)); for 0<=beta<1 every step is at most lr/sqrt(1-beta).", "quantifier": "every sequence of updates", "why_tests_cant": "history property", "anchors": ["include/Trixy/Neuro/Functional/Optimizer/RMSProp.hpp"]}
{"id": "C48", "title": "Adam follows the bias-corrected recursion", "statement": "For each parameter tensor, its k-th update uses m and s recursions with beta1, beta2, bias corrections 1-beta1^k and 1-beta2^k where k counts training iterations (updates of that tensor), and the step lr*mhat/sqrt(1e-9+shat).", "quantifier": "every sequence of updates over any number of tensors", "why_tests_cant": "the counter is shared between tensors, visible only with several tensors", "anchors": ["include/Trixy/Neuro/Functional/Optimizer/Adam.hpp"]}
{"id": "C49", "title": "Optimizer state is kept separately per parameter tensor", "statement": "Updating one tensor never changes the state used for another: the trajectory of a tensor depends only on its own gradients (and the learning rate), not on interleaved updates of other tensors.", "quantifier": "every interleaving of updates", "why_tests_cant": "all interleavings", "anchors": ["include/Trixy/Neuro/Functional/Optimizer/Interface.hpp:get", "include/Trixy/Neuro/Functional/Optimizer/Momentum.hpp", "include/Trixy/Neuro/Functional/Optimizer/Adam.hpp"]}
{"id": "C50", "title": "update does not modify the gradient", "statement": "optimizer.update(param, grad) leaves grad unchanged.", "quantifier": "every optimizer, contents", "why_tests_cant": "frame condition", "anchors": ["include/Trixy/Neuro/Functional/Optimizer/GradDescent.hpp", "include/Trixy/Neuro/Functional/Optimizer/StoGradDescent.hpp", "include/Trixy/Neuro/Functional/Optimizer/Momentum.hpp", "include/Trixy/Neuro/Functional/Optimizer/Adam.hpp"]}
{"id": "C51", "title": "FullyConnected construction and forward pass", "statement": "FullyConnected(in,out,act) owns correctly sized zeroed parameters; forward(x) sets value() to act(x.W + B) componentwise, changes no parameter and no gradient, and repeated calls with the same input give the same value; the Raw and Train variants agree.", "quantifier": "every size, weights, input, activation, previous state", "why_tests_cant": "all states", "anchors": ["include/Trixy/Neuro/Network/Layer/FullyConnected.hpp"]}
{"id": "C52", "title": "FullyConnected backward computes the gradient", "statement": "After forward(x) and backward(x,d), the bias gradient, weight gradient and delta() are the partial derivatives of sum_k d_k*value_k with respect to B, W and x (exact arithmetic, activation differentiable at the pre-activations); with full=false delta() is left unchanged.", "quantifier": "every size, weights, input, delta", "why_tests_cant": "gradient identity for all dimensions", "anchors": ["include/Trixy/Neuro/Network/Layer/FullyConnected.hpp:backward"]}
{"id": "C53", "title": "FullyConnected batch accumulation", "statement": "After reset and k rounds of forward/backward/accumulate, update(opt,alpha) hands the optimizer alpha times the sum of the k per-sample gradients.", "quantifier": "every k, every sample sequence", "why_tests_cant": "history property", "anchors": ["include/Trixy/Neuro/Network/Layer/FullyConnected.hpp:accumulate", "include/Trixy/Neuro/Network/Layer/FullyConnected.hpp:reset", "include/Trixy/Neuro/Network/Layer/FullyConnected.hpp:update"]}
{"id": "C54", "title": "A stochastic step uses the current sample's gradient whatever training came before", "statement": "In stochastic training each update uses the gradient of the sample just presented, also when the network was trained with batch or mini_batch before.", "quantifier": "every training history", "why_tests_cant": "depends on history", "anchors": ["include/Trixy/Neuro/Network/Layer/FullyConnected.hpp:update", "include/Trixy/Neuro/Training/UnifiedNet.hpp:stochastic"]}
{"id": "C55", "title": "Convolution output size and memory safety", "statement": "For any input, filter not larger than the padded input, padding and non-zero strides, the output is floor((H-F+2P)/S)+1 in each dimension, and forward/backward access only elements inside the tensors, in spite of the unsigned index arithmetic.", "quantifier": "every geometry with sizes below 2^62", "why_tests_cant": "wrap-around index arithmetic for all geometries", "anchors": ["include/Trixy/Neuro/Network/Layer/Convolutional.hpp"]}
{"id": "C56", "title": "Convolution forward is padded strided cross-correlation", "statement": "value(f,y,x) = B(f) + sum over i,j,c of padded_input(c, S*y+i-P, S*x+j-P)*W_f(c,i,j), for every output position; parameters unchanged; Raw and Train variants agree.", "quantifier": "every geometry, weights and input", "why_tests_cant": "all geometries", "anchors": ["include/Trixy/Neuro/Network/Layer/Convolutional.hpp:forward"]}
{"id": "C57", "title": "Convolution backward computes the gradient", "statement": "With gradients zero before, backward(x,d) leaves in the gradients of W, B and in delta() the partial derivatives of sum d(f,y,x)*value(f,y,x) with respect to W, B and the input.", "quantifier": "every geometry, weights, input, delta", "why_tests_cant": "all geometries", "anchors": ["include/Trixy/Neuro/Network/Layer/Convolutional.hpp:backward"]}
{"id": "C58", "title": "Convolution gradients start afresh for each batch", "statement": "After reset(), the gradient applied by update depends only on the samples presented since reset().", "quantifier": "every training history", "why_tests_cant": "history property", "anchors": ["include/Trixy/Neuro/Network/Layer/Convolutional.hpp:update", "include/Trixy/Neuro/Network/Layer/Base.hpp:reset"]}
{"id": "C59", "title": "Max pooling takes the maximum of each window (Raw)", "statement": "XMaxPooling.forward sets value(d,i,j) to activation applied to the maximum of the input window [i*S,(i+1)*S) x [j*S',(j+1)*S'), when the strides divide the input dimensions; no access outside the tensors.", "quantifier": "every geometry with dividing strides, every input", "why_tests_cant": "all geometries", "anchors": ["include/Trixy/Neuro/Network/Layer/MaxPooling.hpp"]}
{"id": "C60", "title": "Max pooling is safe for any stride", "statement": "forward touches only elements inside its tensors for every non-zero stride, including strides that do not divide the input size.", "quantifier": "every geometry", "why_tests_cant": "all geometries", "anchors": ["include/Trixy/Neuro/Network/Layer/MaxPooling.hpp:forward"]}
{"id": "C61", "title": "Max pooling in training mode computes the same output as in raw mode", "statement": "MaxPooling.forward (Train) gives value() equal to XMaxPooling.forward (Raw) on the same input.", "quantifier": "every input", "why_tests_cant": "all inputs", "anchors": ["include/Trixy/Neuro/Network/Layer/MaxPooling.hpp:forward"]}
{"id": "C62", "title": "Max pooling backward routes each delta to the window's maximum", "statement": "delta(d,i,j) is the incoming delta of the window if (i,j) is the position of that window's (first) maximum and 0 elsewhere (Identity activation).", "quantifier": "every geometry with dividing strides, every input and delta", "why_tests_cant": "all geometries", "anchors": ["include/Trixy/Neuro/Network/Layer/MaxPooling.hpp:backward"]}
{"id": "C63", "title": "feedforward is the composition of the layers", "statement": "net.feedforward(x) returns the output of the last layer applied to the output of the previous one, ... applied to x; every intermediate value() is that prefix composition.", "quantifier": "every number of layers, every parameters and input", "why_tests_cant": "all nets", "anchors": ["include/Trixy/Neuro/Network/UnifiedNet.hpp:feedforward"]}
{"id": "C64", "title": "feedforward is repeatable and leaves the model unchanged", "statement": "feedforward changes no parameter or gradient, and calling it again with the same input returns the same output irrespective of calls in between with other inputs.", "quantifier": "every net of FullyConnected/Convolutional layers, every call sequence", "why_tests_cant": "history property", "anchors": ["include/Trixy/Neuro/Network/UnifiedNet.hpp:feedforward"]}
{"id": "C65", "title": "Back-propagation computes the gradient of the loss", "statement": "After feedforward(x) and backprop(x,t), every layer's weight and bias gradients are the partial derivatives of the loss of the network output w.r.t. these parameters (for a convolution: are increased by them), in exact arithmetic, for networks of dense and convolution layers of any depth >= 2 whose activations and loss supply their true derivative (C33, C38; softmax last with cross entropy, C40).", "quantifier": "every depth, all layer sizes, geometries, weights, samples, targets", "why_tests_cant": "chain rule over arbitrary depth", "anchors": ["include/Trixy/Neuro/Training/UnifiedNet.hpp:backprop", "include/Trixy/Neuro/Network/Layer/FullyConnected.hpp:backward"]}
{"id": "C66", "title": "Training works for a network of any non-zero depth", "statement": "backprop performs no out-of-range layer access for any network with at least one layer.", "quantifier": "every depth", "why_tests_cant": "boundary depth", "anchors": ["include/Trixy/Neuro/Training/UnifiedNet.hpp:backprop"]}
{"id": "C67", "title": "batch presents every sample once per epoch and averages", "statement": "batch(idata,odata,opt,E) performs exactly E optimizer rounds; in each, gradients are reset, every sample index 0..n-1 is presented once in order with its own target, and the update is scaled by 1/n.", "quantifier": "every data set size, epochs", "why_tests_cant": "schedule over all sizes", "anchors": ["include/Trixy/Neuro/Training/UnifiedNet.hpp:batch"]}
{"id": "C68", "title": "mini_batch partitions the data set", "statement": "mini_batch with batch size b presents, per epoch, each sample index below b*floor(n/b) exactly once in order, in floor(n/b) batches of b samples, each with its own reset and update scaled by 1/b, and never an index >= n.", "quantifier": "every n, b>0, epochs", "why_tests_cant": "schedule over all sizes", "anchors": ["include/Trixy/Neuro/Training/UnifiedNet.hpp:mini_batch"]}
{"id": "C69", "title": "stochastic picks valid samples", "statement": "stochastic performs exactly the requested number of steps, each on a sample index generator()%n that is below n, with its own target, each followed by one update.", "quantifier": "every generator sequence, n>0", "why_tests_cant": "all generator outputs", "anchors": ["include/Trixy/Neuro/Training/UnifiedNet.hpp:stochastic"]}
{"id": "C70", "title": "Accuracy measures are the stated fractions", "statement": "normal() is the fraction of samples whose (first) maximal target index equals that of the prediction, full(r) the fraction with all components within r, global(r) the fraction of components strictly within r; all are in [0,1].", "quantifier": "every data set and network outputs", "why_tests_cant": "all data sets", "anchors": ["include/Trixy/Neuro/Checker/Accuracy.hpp"]}
{"id": "C71", "title": "Mean loss", "statement": "loss(idata,odata) is the arithmetic mean of the per-sample losses of the network outputs, samples taken in order (Checker::loss and Training::loss agree).", "quantifier": "every data set", "why_tests_cant": "all data sets", "anchors": ["include/Trixy/Neuro/Checker/Core.hpp:loss", "include/Trixy/Neuro/Training/UnifiedNet.hpp:loss"]}
{"id": "C72", "title": "Networks and trainers can be copied", "statement": "Copying a TrixyNet or a Training object and destroying both copies releases each layer / loss object exactly once.", "quantifier": "every network", "why_tests_cant": "lifetime property", "anchors": ["include/Trixy/Neuro/Network/UnifiedNet.hpp:~TrixyNet", "include/Trixy/Neuro/Training/UnifiedNet.hpp:Training(const Training&)"]}
{"id": "C73", "title": "Linear regression training finds the least-squares solution", "statement": "After train(X,y) with full column rank design matrix, the weights satisfy the normal equations and minimise the sum of squared residuals over all weight vectors (exact arithmetic).", "quantifier": "every sample count/dimension, data", "why_tests_cant": "minimality over all weight vectors", "anchors": ["include/Trixy/Neuro/Training/LinearRegression.hpp:train"]}
{"id": "C74", "title": "Polynomial regression training finds the least-squares polynomial", "statement": "After train(x,y) with at least power+1 distinct abscissae, the weights minimise the sum of squared residuals over all polynomials of that degree (exact arithmetic).", "quantifier": "every degree, data", "why_tests_cant": "minimality over all polynomials", "anchors": ["include/Trixy/Neuro/Training/PolynomialRegression.hpp:train"]}
{"id": "C75", "title": "Batch and single-sample regression predictions agree", "statement": "feedforward(batch)(i) equals the single-sample prediction for sample i: W(0)+sum W(j)*x(j-1) (linear), sum W(j)*x^j (polynomial), in exact arithmetic.", "quantifier": "every size and contents", "why_tests_cant": "all sizes", "anchors": ["include/Trixy/Neuro/Regression/Linear.hpp", "include/Trixy/Neuro/Regression/Polynomial.hpp"]}
{"id": "C76", "title": "Regression init installs the given weights", "statement": "reg.init(w) makes weight() equal to w for a vector w of matching size (passed as an lvalue or as a temporary).", "quantifier": "every weight vector", "why_tests_cant": "all contents", "anchors": ["include/Trixy/Neuro/Regression/Linear.hpp:init", "include/Trixy/Neuro/Regression/Polynomial.hpp:init"]}
{"id": "C77", "title": "Saving and loading a network preserves its function", "statement": "Deserializing a serialized network of FullyConnected/Convolutional layers gives a network with equal parameters whose feedforward equals the original's on every input.", "quantifier": "every network, every input", "why_tests_cant": "all networks and inputs", "anchors": ["include/Trixy/Neuro/Serializer/Core.hpp", "include/Trixy/Neuro/Network/Layer/FullyConnected.hpp", "include/Trixy/Neuro/Network/Layer/Convolutional.hpp", "include/Trixy/Lique/TensorBase.hpp"]}
{"id": "C78", "title": "Saving and loading works for pooling layers", "statement": "A deserialized network containing MaxPooling layers can be fed forward and gives the original's outputs.", "quantifier": "every network with pooling", "why_tests_cant": "all networks", "anchors": ["include/Trixy/Neuro/Network/Layer/MaxPooling.hpp"]}
{"id": "C79", "title": "RandomIntegral stays in the requested range", "statement": "With the default generator and an integral type that holds RAND_MAX, random(min,max) returns a value in [min,max] for every generator output and every min<=max whose width does not overflow; every value of a range of at most RAND_MAX+1 values is returned for some generator output.", "quantifier": "every min,max, generator output", "why_tests_cant": "all outputs", "anchors": ["include/Trixy/Random/Core.hpp"]}
{"id": "C80", "title": "RandomFloating stays in the requested range", "statement": "random() is in [0,1] and random(min,max) in [min,max] (exact arithmetic) for every generator output.", "quantifier": "every min<=max, generator output", "why_tests_cant": "all outputs", "anchors": ["include/Trixy/Random/Core.hpp"]}
{"id": "C81", "title": "parallel_info splits work soundly", "statement": "For every size and any hardware thread count the returned number of threads t is at least 1, and for non-empty data at most ceil(size/min_per_thread) and the hardware count, and t*block <= size < t*block + t.", "quantifier": "every size, min_per_thread>0, hardware concurrency", "why_tests_cant": "environment dependent", "anchors": ["include/Trixy/Detail/FunctionDetail.hpp:parallel_info"]}
{"id": "C82", "title": "MNIST header decoding", "statement": "read_header returns the big-endian 32-bit value stored at the given header word, for every file contents, and a file accepted by read_mnist_file is large enough for the count*rows*columns image bytes its header announces.", "quantifier": "every file contents", "why_tests_cant": "all 2^32 words; adversarial headers", "anchors": ["test/src/mnist_test/mnist_reader.hpp"]}
{"id": "C83", "title": "Container resize fills with copies of the argument", "statement": "c.resize(n, value) with n >= size() appends n - size() elements equal to value, whether value is an lvalue or a temporary.", "quantifier": "every container, n, value", "why_tests_cant": "all sizes and element types", "anchors": ["include/Trixy/Container/Container.hpp:resize"]}
{"id": "C84", "title": "Optimizer state belongs to a live tensor", "statement": "After a parameter tensor has been destroyed and another one allocated (possibly at the same address, with another size), updating the new tensor starts from zero state and stays within the optimizer's memory.", "quantifier": "every sequence of creations, updates and destructions", "why_tests_cant": "depends on address reuse", "anchors": ["include/Trixy/Neuro/Functional/Optimizer/Interface.hpp:get"]}
{"id": "C85", "title": "A convolution followed by a fully connected layer can be trained", "statement": "backward of a convolution with output F x OH x OW accepts the delta() of a FullyConnected layer with F*OH*OW inputs placed after it, reading only elements inside that tensor.", "quantifier": "every convolution geometry, every fully connected layer of matching size", "why_tests_cant": "all geometries; reads outside a tensor need not show", "anchors": ["include/Trixy/Neuro/Network/Layer/Convolutional.hpp:backward", "include/Trixy/Neuro/Network/Layer/FullyConnected.hpp:delta"]}
{"id": "C86", "title": "RandomIntegral with any generator", "statement": "With any callable generator (the template accepts e.g. std::mt19937), random(min,max) is in [min,max] for every generator output and every min<=max of the type.", "quantifier": "every generator output, every integral type, every range", "why_tests_cant": "all outputs", "anchors": ["include/Trixy/Random/Core.hpp"]}
{"id": "C87", "title": "Destroying a network releases exactly what building it took", "statement": "Building a TrixyNet from any sequence of new layers allocates only new memory; whatever is computed with the network afterwards, destroying it succeeds, releases every allocation made by the layers' constructors, and touches no other memory.", "quantifier": "every sequence of layer expressions, every initial memory, every later contents of the layers' memory", "why_tests_cant": "all layer sequences and states; leaks and double frees need not show", "anchors": ["include/Trixy/Neuro/Network/UnifiedNet.hpp:~TrixyNet", "include/Trixy/Neuro/Network/UnifiedNet.hpp:add", "include/Trixy/Neuro/Network/Layer/FullyConnected.hpp", "include/Trixy/Neuro/Network/Layer/Convolutional.hpp", "include/Trixy/Neuro/Network/Layer/MaxPooling.hpp"]}
{"id": "C88", "title": "Replacing an activation or a loss releases the old object exactly once", "statement": "connect(activation) and loss(loss) delete the object used so far and nothing else, and the layer / trainer owns the new one: after its destruction every object has been released once. This includes passing the object already in use, and one activation object given to two layers.", "quantifier": "every layer, trainer and object", "why_tests_cant": "lifetime property", "anchors": ["include/Trixy/Neuro/Network/Layer/FullyConnected.hpp:connect", "include/Trixy/Neuro/Network/Layer/MaxPooling.hpp:connect", "include/Trixy/Neuro/Training/UnifiedNet.hpp:loss"]}
{"id": "C89", "title": "Training with gradient descent always completes", "statement": "For every network of at least two trainable layers (any mixture of kinds), a trainer prepared for it, a loss and matching data, batch, mini-batch and stochastic training with GradDescent run to the end without an invalid access, for any number of epochs and any batch size, write only to memory of the network and the trainer, and leave them ready for further training.", "quantifier": "every network, data set, number of epochs, batch size, generator, learning rate and number type", "why_tests_cant": "all networks, data and lengths of training; an invalid write need not show", "anchors": ["include/Trixy/Neuro/Training/UnifiedNet.hpp:batch", "include/Trixy/Neuro/Training/UnifiedNet.hpp:mini_batch", "include/Trixy/Neuro/Training/UnifiedNet.hpp:stochastic", "include/Trixy/Neuro/Functional/Optimizer/GradDescent.hpp"]}
{"id": "C90", "title": "Training with GradDescent is gradient descent on the mean loss", "statement": "Each update made by batch (all samples), mini_batch (the samples of the mini-batch) and stochastic (one sample) moves every weight and bias by minus the learning rate times the partial derivative of the mean loss over those samples with respect to it (exact arithmetic, where the loss is differentiable).", "quantifier": "every network, data set, number of epochs, batch size, learning rate", "why_tests_cant": "all networks, all parameters, all lengths of training; derivatives are limits", "anchors": ["include/Trixy/Neuro/Training/UnifiedNet.hpp", "include/Trixy/Neuro/Network/Layer/FullyConnected.hpp", "include/Trixy/Neuro/Network/Layer/Convolutional.hpp", "include/Trixy/Neuro/Functional/Optimizer/GradDescent.hpp"]}
{"id": "C91", "title": "A small enough learning rate decreases the loss", "statement": "If the mean loss is differentiable at the current parameters and some partial derivative is not zero, there is a bound such that for every positive learning rate below it one epoch of batch training with GradDescent makes the mean loss, as reported by loss(idata, odata), strictly smaller (exact arithmetic).", "quantifier": "every network and data set, every learning rate below the bound", "why_tests_cant": "existence of a bound for all rates below it; all networks and data", "anchors": ["include/Trixy/Neuro/Training/UnifiedNet.hpp:batch", "include/Trixy/Neuro/Training/UnifiedNet.hpp:loss", "include/Trixy/Neuro/Functional/Optimizer/GradDescent.hpp"]}
{"id": "C92", "title": "Initialisation draws successive values", "statement": "net.init(generator) sets the parameters of all layers (dense: biases then weights; convolution: filters then biases), one after the other, to successive values of the generator, whatever kind of function object it is, and changes nothing else.", "quantifier": "every network, every generator (state inside the function object or outside)", "why_tests_cant": "all networks and generators; equal weights need not show", "anchors": ["include/Trixy/Neuro/Network/UnifiedNet.hpp:init", "include/Trixy/Neuro/Network/Layer/FullyConnected.hpp:init", "include/Trixy/Neuro/Network/Layer/Convolutional.hpp:init", "include/Trixy/Lique/TensorBase.hpp:fill", "include/Trixy/Lique/Detail/FunctionDetail.hpp:fill"]}
{"id": "C93", "title": "Random numbers in a range, in floating-point arithmetic", "statement": "RandomFloating gives a finite number between 0 and 1, and random(min, max) a finite number between min and max, for every generator output, in IEEE float and double arithmetic.", "quantifier": "every generator output, every min <= max, every IEEE format", "why_tests_cant": "all outputs and ranges; rounding cases are rare", "anchors": ["include/Trixy/Random/Core.hpp"]}
{"id": "C94", "title": "Activations of finite floating-point inputs", "statement": "On a finite input every activation writes a finite number within its range (sigmoid 0 to 1, tanh, softsign and mod_tanh -1 to 1, relu and softplus not negative, swish between 0 and x) in IEEE arithmetic: no NaN, no infinity.", "quantifier": "every finite input, every float format of at least 24 bits, every C math library meeting the stated contract", "why_tests_cant": "all floating-point inputs, including huge ones", "anchors": ["include/Trixy/Neuro/Functional/Function/ActivationLess.hpp", "include/Trixy/Neuro/Functional/Function/Activation.hpp"]}
{"id": "C95", "title": "Derivatives of activations at finite floating-point inputs", "statement": "On a finite input the derivative written by every activation is finite (and between 0 and 1 where the exact derivative is) in IEEE arithmetic.", "quantifier": "every finite input, every float format of at least 24 bits, every C math library meeting the stated contract", "why_tests_cant": "all floating-point inputs, including huge ones", "anchors": ["include/Trixy/Neuro/Functional/Function/ActivationLess.hpp", "include/Trixy/Neuro/Functional/Function/Activation.hpp"]}
{"id": "C96", "title": "SoftMax of finite floating-point inputs is a probability vector", "statement": "On finite inputs of any size SoftMax writes finite numbers between 0 and 1 whose exact sum is within an explicit rounding bound of 1, and with a monotone exp a larger input never gets a smaller output, in IEEE arithmetic.", "quantifier": "every non-empty vector of finite inputs, every float format, every C math library meeting the stated contract", "why_tests_cant": "all floating-point inputs, including huge ones; all sizes", "anchors": ["include/Trixy/Neuro/Functional/Function/Activation.hpp:softmax"]}
{"id": "C97", "title": "unstable_softmax of finite floating-point inputs is finite", "statement": "On finite inputs unstable_softmax writes finite numbers between 0 and 1 (up to rounding) in IEEE arithmetic.", "quantifier": "every non-empty vector of finite inputs, every float format, every C math library meeting the stated contract", "why_tests_cant": "all floating-point inputs, including huge ones; all sizes", "anchors": ["include/Trixy/Neuro/Functional/Function/Activation.hpp:unstable_softmax"]}
{"id": "C98", "title": "Dot products and matrix products in floating-point arithmetic", "statement": "Every entry computed by Linear::dot (vector.vector, vector.matrix, matrix.vector, matrix.matrix) differs from the exact sum of products by at most ((1+u)^(n+1) - 1) sum|a b| + n eta (1+u)^(n+1); a finite entry comes from finite operands only, finite operands that are not too large give a finite entry, and integers up to 2^precision are handled without any error.", "quantifier": "every size, every contents, every IEEE format", "why_tests_cant": "all sizes and floating-point contents; rounding errors are data dependent", "anchors": ["include/Trixy/Lique/Linear.hpp:dot"]}
{"id": "C99", "title": "Dense layers in floating-point arithmetic", "statement": "forward of a dense layer applies the activation to pre-activations that differ from x.W + B by at most the classical rounding bound for n+2 roundings; finite inputs and parameters that are not too large give finite outputs; the gradients are within one rounding of their factors and the delta passed on within the bound of a dot product.", "quantifier": "every layer size, parameters, input, activation, IEEE format", "why_tests_cant": "all sizes and floating-point contents", "anchors": ["include/Trixy/Neuro/Network/Layer/FullyConnected.hpp:forward", "include/Trixy/Neuro/Network/Layer/FullyConnected.hpp:backward"]}
{"id": "C100", "title": "Convolution layers in floating-point arithmetic", "statement": "Every output of a convolution differs from the exact correlation by at most the classical rounding bound for one rounding per filter element; every gradient entry written by backward differs from the old gradient plus the exact partial derivative by at most the bound for the number of terms, and the delta from the exact derivative; results are finite when the bound stays below the largest number.", "quantifier": "every geometry, parameters, input, delta, IEEE format", "why_tests_cant": "all geometries and floating-point contents; derivatives are limits", "anchors": ["include/Trixy/Neuro/Network/Layer/Convolutional.hpp:forward", "include/Trixy/Neuro/Network/Layer/Convolutional.hpp:backward"]}
{"id": "C101", "title": "Losses of probabilities in floating-point arithmetic", "statement": "For any number of targets and predictions between 0 and 1, the MSE, MAE, CCE, MSLE and log-cosh losses are finite numbers, and not negative except CCE, in IEEE arithmetic.", "quantifier": "every size, all contents in [0,1], every float format of at least 24 bits, every C math library meeting the stated contract", "why_tests_cant": "all sizes and floating-point contents; the sums saturate only for huge sizes", "anchors": ["include/Trixy/Neuro/Functional/Function/Loss.hpp"]}
{"id": "C102", "title": "Regression losses of any finite numbers in floating-point arithmetic", "statement": "MSE, MAE and log-cosh of finite targets and predictions are never NaN and never negative; MSLE of non-negative ones is finite; a perfect prediction has loss exactly 0 and only a perfect one has mean absolute error 0; finite MAE and MSE values differ from the exact ones by at most the rounding bound for one rounding per element.", "quantifier": "every size, all finite contents, every float format of at least 24 bits, every C math library meeting the stated contract", "why_tests_cant": "all sizes and floating-point contents, including huge ones", "anchors": ["include/Trixy/Neuro/Functional/Function/Loss.hpp"]}
{"id": "C103", "title": "Cross-entropy, log-likelihood and log-cosh losses are finite", "statement": "BCE and NLL of probabilities, and log-cosh of finite numbers, are finite in IEEE arithmetic: the epsilon in the formula keeps the logarithms finite.", "quantifier": "every size, all contents in [0,1] (log-cosh: all finite), float and double", "why_tests_cant": "all floating-point contents, including exact 0 and 1", "anchors": ["include/Trixy/Neuro/Functional/Function/Loss.hpp"]}
{"id": "C104", "title": "Loss derivatives in floating-point arithmetic", "statement": "The derivative written by every loss at targets and predictions between 0 and 1 is a finite number between -1 and 1 in every element; at any finite numbers that of MAE is exactly the sign of target minus prediction, that of log-cosh is between -1 and 1, and that of MSE, CCE and NLL is prediction minus target with one rounding.", "quantifier": "every size, all contents, every float format of at least 24 bits, every C math library meeting the stated contract", "why_tests_cant": "all sizes and floating-point contents", "anchors": ["include/Trixy/Neuro/Functional/Function/Loss.hpp"]}
{"id": "C105", "title": "Training with every optimizer always completes", "statement": "For every network of at least two trainable layers, a trainer prepared for it, a loss, matching data and an optimizer of any class (GradDescent, StoGradDescent, Momentum, Nestorov, AdaGrad, RMSProp, Adam), new or already used with this network, batch, mini-batch and stochastic training run to the end without an invalid access for any number of epochs and any batch size, write only to memory of the network, the trainer and the optimizer's own buffers, and leave all of them ready for the next call.", "quantifier": "every network, data set, number of epochs, batch size, generator, optimizer class and hyper-parameters, every earlier use of the optimizer, every number type", "why_tests_cant": "all networks, data, lengths of training and optimizer histories; an invalid write into another tensor's buffer need not show", "anchors": ["include/Trixy/Neuro/Training/UnifiedNet.hpp:batch", "include/Trixy/Neuro/Training/UnifiedNet.hpp:mini_batch", "include/Trixy/Neuro/Training/UnifiedNet.hpp:stochastic", "include/Trixy/Neuro/Functional/Optimizer/Momentum.hpp", "include/Trixy/Neuro/Functional/Optimizer/AdaGrad.hpp", "include/Trixy/Neuro/Functional/Optimizer/RMSProp.hpp", "include/Trixy/Neuro/Functional/Optimizer/Adam.hpp"]}
{"id": "C106", "title": "Training applies the optimizer's rule to the gradients of the mean loss", "statement": "In batch, mini-batch and stochastic training from a new optimizer every weight and bias follows the textbook recurrence of the optimizer's class, fed at each update with the partial derivative of the mean loss over that update's samples (exact arithmetic, where the loss is differentiable): the optimizer's state of one tensor is never mixed up with that of another.", "quantifier": "every network, data set, number of epochs, batch size, optimizer class, hyper-parameters", "why_tests_cant": "all networks, all parameters, all lengths of training; derivatives are limits", "anchors": ["include/Trixy/Neuro/Training/UnifiedNet.hpp", "include/Trixy/Neuro/Network/Layer/FullyConnected.hpp:update", "include/Trixy/Neuro/Network/Layer/Convolutional.hpp:update", "include/Trixy/Neuro/Functional/Optimizer/Adam.hpp", "include/Trixy/Neuro/Functional/Optimizer/Momentum.hpp"]}
{"id": "C107", "title": "Evaluating between training calls does not change the training", "statement": "In any sequence of training calls (batch, mini-batch, stochastic) and evaluation calls (prediction, the trainer's mean loss, the checker's loss and its three accuracies) every call completes, and the weights, biases, accumulation flags and complete optimizer state at the end are exactly those of the same sequence with the evaluation calls left out, in every number type: a program may monitor its training without influencing it.", "quantifier": "every network of two or more layers (dense, convolution, max pooling), data set, optimizer class and history, every sequence of calls, every evaluation data set, every number type", "why_tests_cant": "all interleavings of calls and all evaluation data; forward passes overwrite buffers that training reads later", "anchors": ["include/Trixy/Neuro/Training/UnifiedNet.hpp", "include/Trixy/Neuro/Network/UnifiedNet.hpp:feedforward", "include/Trixy/Neuro/Checker/Accuracy.hpp", "include/Trixy/Neuro/Checker/Core.hpp", "include/Trixy/Neuro/Network/Layer/FullyConnected.hpp:forward", "include/Trixy/Neuro/Network/Layer/Convolutional.hpp:forward", "include/Trixy/Neuro/Network/Layer/MaxPooling.hpp:forward"]}
{"id": "C108", "title": "The order of the samples in a batch does not matter in exact arithmetic", "statement": "Batch training on the same pairs of samples and targets in any other order, and mini-batch training with the samples reordered inside their mini-batches, ends with the same value in every weight and bias, the same accumulation flags and the same complete optimizer state.", "quantifier": "every network of at least two dense and convolution layers, any parameters and buffer contents, every data set and every permutation of it, any number of epochs, batch size, loss, optimizer class and optimizer history", "why_tests_cant": "all permutations of all data sets; in floating point the results differ by rounding, so tests can only compare approximately", "anchors": ["include/Trixy/Neuro/Training/UnifiedNet.hpp:batch", "include/Trixy/Neuro/Training/UnifiedNet.hpp:mini_batch", "include/Trixy/Neuro/Network/Layer/FullyConnected.hpp:accumulateGradients", "include/Trixy/Neuro/Network/Layer/Convolutional.hpp:backward"]}
{"id": "C109", "title": "Training resumes from a saved network", "statement": "A network is saved between two training calls and loaded in another program. If that program's optimizer has the same class, settings, counters and accumulators and its data have the same values, then training the loaded network there ends with the same weights and biases, and the same optimizer state, as training on without interruption, in every number type.", "quantifier": "every network of dense layers, moment of saving, loading program's memory, data set, number of epochs, batch size, generator, loss, optimizer class and optimizer history", "why_tests_cant": "all networks, histories and lengths of training; state that is not in the archive may matter only much later", "anchors": ["include/Trixy/Neuro/Network/UnifiedNet.hpp:serialize", "include/Trixy/Neuro/Serializer/Core.hpp", "include/Trixy/Neuro/Training/UnifiedNet.hpp", "include/Trixy/Neuro/Network/Layer/FullyConnected.hpp:serialize", "include/Trixy/Neuro/Network/Layer/Convolutional.hpp:serialize"]}
{"id": "C110", "title": "Bounded gradients never make a parameter overflow", "statement": "In float and double arithmetic with hyper-parameters in their usual ranges (any optimizer; decay with 0 <= rate*decay <= 2, momentum factor of magnitude at most 1, betas in [0,1)), if every learning rate is at most 2^a and every gradient component at most 2^b in magnitude, then parameters that start at most 2^J in magnitude (J at least 3*precision+17+a+b and below the exponent limit) are finite and at most 2^J after any number of updates of any tensors in any order.", "quantifier": "every optimizer class and usual hyper-parameters, every number of updates, all tensors and gradients within the bounds, every IEEE format of at least 24 bits with enough exponent range", "why_tests_cant": "no bound on the number of updates: saturation, not the sum of the steps, keeps the value finite", "anchors": ["include/Trixy/Neuro/Functional/Optimizer/GradDescent.hpp", "include/Trixy/Neuro/Functional/Optimizer/Momentum.hpp", "include/Trixy/Neuro/Functional/Optimizer/Adam.hpp", "include/Trixy/Neuro/Functional/Optimizer/RMSProp.hpp"]}
{"id": "C111", "title": "AdaGrad and RMSProp tolerate every finite gradient in floating-point arithmetic", "statement": "In float and double arithmetic AdaGrad and RMSProp (0 < beta < 1) keep parameters finite for every sequence of finite gradients, however large; one update moves a parameter by at most about rate (AdaGrad) or rate/sqrt(1-beta) (RMSProp) plus rounding and never to NaN; a gradient whose square overflows stops the component for good instead of destroying it. With beta = 0 RMSProp does not have this property: such a gradient makes the parameter NaN at the next update.", "quantifier": "every sequence of finite gradients and updates, learning rates up to 2^a, every IEEE format of at least 24 bits with enough exponent range", "why_tests_cant": "all gradients including those whose square overflows or underflows, any number of updates", "anchors": ["include/Trixy/Neuro/Functional/Optimizer/AdaGrad.hpp", "include/Trixy/Neuro/Functional/Optimizer/RMSProp.hpp", "include/Trixy/Detail/FunctionDetail.hpp:invert_sqrt"]}
{"id": "C112", "title": "Rounding error of gradient descent over a whole training", "statement": "After any number of GradDescent updates in IEEE arithmetic a finite parameter differs from the exact rule applied to the same learning rates and gradients by at most the rounding bound for one rounding per update relative to |initial value| + sum of |rate*gradient|; if that quantity plus the bound is below the overflow threshold the parameter is finite.", "quantifier": "every number of updates, all learning rates, gradients and initial values, every IEEE format", "why_tests_cant": "all floating-point histories of any length", "anchors": ["include/Trixy/Neuro/Functional/Optimizer/GradDescent.hpp"]}
{"id": "C113", "title": "Every optimizer's first epoch decreases the loss if its learning rate is small", "statement": "For a network ready for training at a point where the gradient of the mean loss over the data is not zero, and a new optimizer of any class (Nesterov momentum factor above -1, betas in [0,1)), there is a bound such that every positive learning rate below it makes one epoch of batch training decrease the mean loss; with weight decay, StoGradDescent decreases the mean loss plus decay/2 times the sum of the squares of all weights and biases. For dense networks the values returned by loss() before and after show it.", "quantifier": "every network, data set, loss and parameters where the loss is differentiable, every optimizer class and its constants", "why_tests_cant": "a statement about all parameter values and all small learning rates; the bound depends on the point", "anchors": ["include/Trixy/Neuro/Training/UnifiedNet.hpp:batch", "include/Trixy/Neuro/Training/UnifiedNet.hpp:loss", "include/Trixy/Neuro/Functional/Optimizer/StoGradDescent.hpp", "include/Trixy/Neuro/Functional/Optimizer/Momentum.hpp", "include/Trixy/Neuro/Functional/Optimizer/Nestorov.hpp", "include/Trixy/Neuro/Functional/Optimizer/AdaGrad.hpp", "include/Trixy/Neuro/Functional/Optimizer/RMSProp.hpp", "include/Trixy/Neuro/Functional/Optimizer/Adam.hpp"]}
{"id": "C114", "title": "AdaGrad and RMSProp can always go on with a smaller learning rate", "statement": "After any sequence of batch and mini-batch trainings and learning rate changes with an AdaGrad or RMSProp optimizer, wherever the mean loss is differentiable with non-zero gradient there is a bound such that setting any positive learning rate below it makes the next epoch of batch training decrease the mean loss: the history in the accumulators never turns a step uphill.", "quantifier": "every network of dense layers (for others: with zero gradient tensors), data set, loss, history of training calls and rates", "why_tests_cant": "all histories and all small rates", "anchors": ["include/Trixy/Neuro/Training/UnifiedNet.hpp:batch", "include/Trixy/Neuro/Training/UnifiedNet.hpp:mini_batch", "include/Trixy/Neuro/Functional/Optimizer/AdaGrad.hpp", "include/Trixy/Neuro/Functional/Optimizer/RMSProp.hpp", "include/Trixy/Detail/FunctionDetail.hpp:invert_sqrt"]}
{"id": "C115", "title": "Predictions in floating-point arithmetic are close to those of the exact network", "statement": "Feeding a sample of finite numbers through a network of dense, convolution and (inference class) max pooling layers with finite parameters in IEEE arithmetic gives, for every activation but GELU, SELU and SoftPlus, only finite outputs, each within an explicit bound of the exact real-number network with the same parameters on the exact inputs. The bound composes layer by layer: input errors weighted by |weights|, the classical rounding bound of each sum, the activation's Lipschitz constant and its own rounding error; the only condition is that no sum's magnitude comes near overflow.", "quantifier": "every network topology, parameters, inputs with any componentwise error, IEEE format of at least 24 bits, math library with exp of relative and tanh/expm1 of absolute accuracy c", "why_tests_cant": "all inputs, parameters and depths; rounding errors differ for every one of them", "anchors": ["include/Trixy/Neuro/Network/UnifiedNet.hpp:feedforward", "include/Trixy/Neuro/Network/Layer/FullyConnected.hpp:forward", "include/Trixy/Neuro/Network/Layer/Convolutional.hpp:forward", "include/Trixy/Neuro/Network/Layer/MaxPooling.hpp:forward", "include/Trixy/Detail/FunctionDetail.hpp"]}
{"id": "C116", "title": "Rounding does not change clear classifications", "statement": "Where the exact network's best output exceeds every other by more than the error bounds (of the preceding property) of the two, argmax of the computed outputs is that class; if this holds for all samples and the targets are finite, Accuracy::normal counts exactly the samples the exact network classifies correctly.", "quantifier": "every network, data set, parameters, error bounds and number of classes as above", "why_tests_cant": "all inputs with a clear margin; a single rounding could flip a comparison", "anchors": ["include/Trixy/Neuro/Network/UnifiedNet.hpp:feedforward", "include/Trixy/Lique/Tool.hpp:argmax", "include/Trixy/Neuro/Checker/Accuracy.hpp:normal"]}
{"id": "C117", "title": "A locked tensor keeps its shape and its storage", "statement": "A tensor, matrix or vector wrapped in a locker keeps its class, its shape and the very same allocation (so data() pointers stay valid) from construction to destruction, whatever the program does with it and with other objects, unless it is moved from or loaded from an archive; objects that no operation targets keep every element; ownership stays exclusive. False if the program uses the reference returned by copy/fill/add/...: through it swap and assignment reach the locked object, changing its shape or making two objects own one allocation.", "quantifier": "every finite history of constructions, copies, moves, assignments, resizes, swaps, element-wise operations and destructions of plain and locked objects", "why_tests_cant": "all histories of operations on any number of objects", "anchors": ["include/Trixy/Locker/Tensor.hpp", "include/Trixy/Locker/Matrix.hpp", "include/Trixy/Locker/Vector.hpp", "include/Trixy/Lique/TensorBase.hpp:swap", "include/Trixy/Lique/TensorBase.hpp:operator="]}
{"id": "C118", "title": "Gradient descent converges", "statement": "A program that repeatedly computes the gradient of a function F with L-Lipschitz gradient at its parameters and updates every tensor once with GradDescent at rates in (0, 1/L] lowers F in every round by at least rate/2 times the squared gradient norm, so some gradient used is as small as the sum of the rates allows; for convex F the final value exceeds that of any other point by at most squared distance over twice the sum of the rates, for c-strongly convex F the squared distance to the minimum shrinks by the factor 1 - c*rate every round; with another convex function in every round the regret against any fixed point has the classical bound; StoGradDescent with weight decay converges linearly to the minimum of F + decay/2 |x|^2 (exact arithmetic).", "quantifier": "every function, starting point, number of tensors and their sizes, order of the updates, number of rounds, rates in the range, every thing done between updates", "why_tests_cant": "any number of rounds of any objective; convergence is a statement about limits", "anchors": ["include/Trixy/Neuro/Functional/Optimizer/GradDescent.hpp", "include/Trixy/Neuro/Functional/Optimizer/StoGradDescent.hpp"]}
{"id": "C119", "title": "Momentum converges on convex objectives", "statement": "With momentum factor mu in [0,1) and a constant rate a with a*L <= 1 - mu the Momentum optimizer, fed with the gradients of a convex function with L-Lipschitz gradient, visits within n rounds a point whose value exceeds the minimum by at most ((1-mu)/(2a) |start - minimum|^2 + mu/(1-mu) (F(start) - F(minimum)))/n (exact arithmetic).", "quantifier": "every convex function, starting point, momentum factor, rate in the range, number of rounds, tensors and orders of update", "why_tests_cant": "any number of rounds; velocities of all tensors carry over between them", "anchors": ["include/Trixy/Neuro/Functional/Optimizer/Momentum.hpp"]}
{"id": "C120", "title": "Nestorov is Nesterov's accelerated method", "statement": "With rate 1/L and momentum factor (1-q)/(1+q), q = sqrt(c/L), the Nestorov optimizer fed with the gradients of a c-strongly convex function with L-Lipschitz gradient at the tensors' values reaches after n rounds a point with c/2 |x - minimum|^2 <= (1-q)^n (F(start) - F(minimum) + c/2 |start - minimum|^2): the accelerated rate, although the tensors hold the look-ahead points (exact arithmetic).", "quantifier": "every strongly convex function, starting point, number of rounds, tensors and orders of update", "why_tests_cant": "any number of rounds; the reformulated update must be equivalent to the textbook method", "anchors": ["include/Trixy/Neuro/Functional/Optimizer/Nestorov.hpp"]}
{"id": "C121", "title": "AdaGrad's regret bound", "statement": "With a constant rate a, AdaGrad fed with subgradients of arbitrary convex functions (another one in every round), at points within D of z in every coordinate, loses against z in total at most (D^2/(2a) + a) times the sum over all coordinates of sqrt(1e-9 + sum of squared gradients), for every z (exact arithmetic).", "quantifier": "every sequence of convex functions, comparator, rate, number of rounds, tensors and orders of update", "why_tests_cant": "any number of rounds and any adversarial choice of functions", "anchors": ["include/Trixy/Neuro/Functional/Optimizer/AdaGrad.hpp", "include/Trixy/Detail/FunctionDetail.hpp:invert_sqrt"]}
{"id": "C122", "title": "Constructors build what they are asked for", "statement": "Every constructor of vector, matrix and tensor (sizes, sizes and a value, sizes and a pointer, a range, a list, a shape) makes an object that reports the given dimensions and owns a new allocation of exactly that many elements: uninitialised, all equal to the value, or equal to the source in order; nothing else in memory changes. A matrix of a shape gets depth*height rows. resize(shape) frees the old allocation and takes the new dimensions; Vector::reshape only changes the reported width; views refer to the given memory with the given dimensions.", "quantifier": "all sizes whose product fits in size_t, all values, source ranges and lists, all states of memory", "why_tests_cant": "all sizes and all contents", "anchors": ["include/Trixy/Lique/Vector.hpp", "include/Trixy/Lique/Matrix.hpp", "include/Trixy/Lique/Tensor.hpp", "include/Trixy/Lique/Shape.hpp"]}
{"id": "C123", "title": "Free derivative functions", "statement": "sigmoid_derived_self applied to sigmoid(x) is the derivative of sigmoid at x. binary_cross_entropy_derived gives, for predictions in [0, 1 - 1e-9), the partial derivatives of the binary cross entropy up to exactly (1-t)*2e-9/((1-p)^2 - 1e-18); it is false that it gives the derivative: for saturated predictions above 1 - 1e-9 with targets up to 1/2 its sign is wrong in every component (the guard is added to p - 1 instead of 1 - p).", "quantifier": "all real x; all numbers of outputs, targets and predictions in the given ranges", "why_tests_cant": "all real inputs; the error only dominates next to saturation", "anchors": ["include/Trixy/Neuro/Functional/Function/Loss.hpp:binary_cross_entropy_derived", "include/Trixy/Neuro/Functional/Function/ActivationLess.hpp:sigmoid_derived_self"]}
{"id": "C124", "title": "A whole program runs without undefined behaviour", "statement": "A program that builds a network of at least two layers with matching sizes, initialises it with any generator, makes a trainer for it, sets a loss and then makes any sequence of calls - batch, mini-batch and stochastic training with a new optimizer, predictions, mean loss, checker loss and the accuracies on data sets in memory - completes every call (no access outside an allocation, no read of uninitialised memory, no double free), keeps the topology and the data, and stays ready for more training. In particular simple_test.cpp and mnist_test.cpp of the repository do, with any data of the right sizes. Layers report the input and output shapes they were built for; a dense layer built from two shapes flattens them.", "quantifier": "every topology without a convolution in front of a dense layer, data set, generator, loss, optimizer, number type and sequence of calls, every initial memory and assignment of distinct addresses", "why_tests_cant": "all call sequences on all networks and data", "anchors": ["include/Trixy/Neuro/Network/UnifiedNet.hpp", "include/Trixy/Neuro/Training/UnifiedNet.hpp", "include/Trixy/Neuro/Checker/Core.hpp", "include/Trixy/Neuro/Checker/Accuracy.hpp", "include/Trixy/Neuro/Network/Layer/FullyConnected.hpp", "include/Trixy/Neuro/Network/Layer/Convolutional.hpp", "include/Trixy/Neuro/Network/Layer/MaxPooling.hpp", "test/src/simple_test.cpp", "test/src/mnist_test/mnist_test.cpp"]}
{"id": "C125", "title": "Training in floating point never produces NaN or infinity", "statement": "In IEEE arithmetic, training a network of dense layers from finite parameters, with any calls in any order and any number of epochs, keeps every parameter finite and below a fixed power of two and all predictions finite, provided the exponents computed from the topology leave room: with AdaGrad or RMSProp the parameters only need room for the learning rate (2^(prec+4) suffices for rates up to 1 and beta up to 15/16) whatever the gradients, with gradient descent and the other classes room for the largest gradient the layer can get. In particular simple_test.cpp's and mnist_test.cpp's networks trained with AdaGrad or RMSProp on data between -1 and 1 stay finite in float and in double, with batches of any size. Activations whose value or derivative overflows (GELU, Swish, SoftPlus) and the logarithmic loss MSLE are excluded.", "quantifier": "every dense topology within the exponent range, data set, generator, loss, optimizer of the seven classes, batch sizes and sequence of calls of any length; every IEEE format with at least 24 bits and emax >= 5 prec + 8, every math library meeting the accuracy contract", "why_tests_cant": "any number of updates; a single overflow anywhere would spread through the whole network", "anchors": ["include/Trixy/Neuro/Training/UnifiedNet.hpp", "include/Trixy/Neuro/Functional/Optimizer/AdaGrad.hpp", "include/Trixy/Neuro/Functional/Optimizer/RMSProp.hpp", "include/Trixy/Neuro/Functional/Optimizer/Adam.hpp", "include/Trixy/Neuro/Network/Layer/FullyConnected.hpp", "test/src/simple_test.cpp", "test/src/mnist_test/mnist_test.cpp"]}
{"id": "C126", "title": "Adam's steps are bounded whatever the size of the gradients, also in floating point", "statement": "In IEEE arithmetic, with rates such that beta1^2 <= theta * beta2 (theta < 1, up to a few rounding errors; the class's defaults 0.9 and 0.999 qualify with theta = 0.82), every update of an Adam optimizer moves each parameter by at most learning rate / sqrt((1-theta)(1-beta2)) plus rounding - at most 75 learning rates with the defaults - however large the gradients are (as long as their double does not overflow), and never to NaN; if the square of a gradient overflows, that component stays where it is in all later updates; so the parameters stay below a fixed power of two for ever. In particular simple_test.cpp's and mnist_test.cpp's networks trained with AdamOptimizer(net, 0.01f) on data between -1 and 1 stay finite in float and in double, with batches of any size and any number of epochs.", "quantifier": "every history of updates of any number of tensors, all gradients below 2^(emax-2), all rates in the range, all dense topologies within the exponent range; every IEEE format with at least 24 bits and emax >= 5 prec + 8", "why_tests_cant": "any number of updates with adversarial gradients: the ratio of two rounded running averages must stay bounded for ever", "anchors": ["include/Trixy/Neuro/Functional/Optimizer/Adam.hpp", "include/Trixy/Detail/FunctionDetail.hpp:invert_sqrt", "test/src/simple_test.cpp", "test/src/mnist_test/mnist_test.cpp"]}
{"id": "C127", "title": "Programs that use a regression run without undefined behaviour and do what they say", "statement": "A program that constructs a linear or polynomial regression, makes any sequence of calls on it - training, batch and single predictions, the checker's loss and the guide's global and full accuracies, reset - and destroys it completes every call in every number type, also when the normal equations are singular or divisions overflow; predictions, losses, counts and flags are those of the weights computed by the last training since construction or reset, the vectors returned are the only memory left allocated, and no other memory changes. In exact arithmetic, if the data determine the weights, training finds the unique least-squares weights, and on data that follow a model the program reports exactly that model's values, loss 0 and every sample within any positive range.", "quantifier": "every size or degree, data sets of any size in memory, every sequence of calls that trains before it predicts, every number type including IEEE floats, every memory at the start", "why_tests_cant": "all call sequences on all data including singular systems", "anchors": ["include/Trixy/Neuro/Regression/Linear.hpp", "include/Trixy/Neuro/Regression/Polynomial.hpp", "include/Trixy/Neuro/Training/LinearRegression.hpp:train", "include/Trixy/Neuro/Training/PolynomialRegression.hpp:train", "include/Trixy/Neuro/Checker/Core.hpp:loss", "include/Trixy/Neuro/Checker/Accuracy.hpp", "include/Trixy/Lique/Linear.hpp:inverse", "test/src/regression_test.cpp"]}
{"id": "C128", "title": "Programs with many containers, plain and locked, behave like programs on lists", "statement": "A program that creates, copies, moves, assigns, modifies and destroys any number of Containers and ContainerLockers behaves like the same program on mathematical lists: given rules on sizes and capacities say exactly which statements are allowed, an allowed program never misbehaves, no two objects ever share storage, other memory is untouched, nothing leaks and destroying all objects releases everything; a program that breaks a rule does reach undefined behaviour. A ContainerLocker keeps its storage, size and capacity until it is destroyed or moved into another locker, and its elements change only by element writes through it.", "quantifier": "every finite sequence of statements over any number of objects, every element type, every memory at the start", "why_tests_cant": "all programs over all objects, including copies of containers with spare capacity and moved-from objects", "anchors": ["include/Trixy/Container/Container.hpp", "include/Trixy/Locker/Container.hpp:Locker"]}
{"id": "C129", "title": "Searches, statistics and sampling in floating point", "statement": "On any float or double data, infinities and NaN included, argmax/argmin (and along Axis::X, column by column) return the first largest/smallest number, skipping NaN elements, except that a NaN in first position is returned whatever follows; max/min return that element. accumulate and mean of finite data are finite and within the classical rounding bound of the exact values unless the sum of the magnitudes is near overflow; std is never negative and its square is within the bound of the exact variance plus (n/k) times the squared error of the computed mean; a finite result means all data are finite. The mean and std of nothing and the unbiased std of one number are NaN, the biased one is 0. multinomial with non-negative weights, some of them positive, never draws an index of weight zero, however the sums round.", "quantifier": "every data set of any size (for mean and std up to 2^precision elements), every generator value, every IEEE format", "why_tests_cant": "all floating-point data; NaN breaks the order the search relies on, and rounding errors grow with the number of elements", "anchors": ["include/Trixy/Lique/Tool.hpp:search", "include/Trixy/Lique/Tool.hpp:accumulate", "include/Trixy/Lique/Tool.hpp:mean", "include/Trixy/Lique/Tool.hpp:std", "include/Trixy/Lique/Tool.hpp:multinomial"]}
{"id": "C130", "title": "How often random choices come out", "statement": "Counting the outputs of the generator: random(min, max) of an integer type gives every value of the range for floor((RAND_MAX + 1) / width) of the RAND_MAX + 1 outputs of the default generator, or for one more; stochastic training presents every sample at every step for floor(N / n) of N outputs, or one more, whatever the other draws; the number of outputs for which random(min, max) of a floating type is at most c differs by at most one from the uniform share of c (exact arithmetic); multinomial draws index k for w_k * rand_max of the rand_max + 1 outputs, up to one, except that what the weights lack to 1 and the last output go to the first largest weight.", "quantifier": "every range and integral type the range fits in, every data set size, step and history of draws, every threshold, every non-negative weights with sum at most 1", "why_tests_cant": "a test draws a few numbers; the claim counts all outputs of the generator", "anchors": ["include/Trixy/Random/Core.hpp:RandomIntegral", "include/Trixy/Random/Core.hpp:RandomFloating", "include/Trixy/Lique/Tool.hpp:multinomial", "include/Trixy/Neuro/Training/UnifiedNet.hpp:stochastic"]}
{"id": "C131", "title": "Gradients computed in floating point are close to the true derivatives", "statement": "feedforward followed by backprop on a sample, in IEEE arithmetic, leaves in every gradient tensor of every layer of a dense network finite numbers that differ from the true partial derivatives of the loss of the exact network (same parameters, exact arithmetic, exact inputs) by at most an explicit bound, computed layer by layer from the magnitudes: the rounding of the sums and products, the accuracy of the math library, the error of the inputs, and how the slopes of the activations react to errors. The forward pass's errors are included. Required: no magnitude reaches the largest number, and the error bound of a pre-activation does not straddle a corner of its activation (as at 0 for ReLU), where an arbitrarily small error would flip the slope.", "quantifier": "every dense network of at least two layers with finite parameters, every sample, target and loss among MSE, LC and, behind SoftMax, CCE and NLL; all activations except GELU, SELU, SoftPlus and Swish; every IEEE format with at least 24 bits and every math library of a given accuracy", "why_tests_cant": "all parameters, inputs and topologies; a finite-difference test in floats cannot tell a wrong gradient from cancellation", "anchors": ["include/Trixy/Neuro/Training/UnifiedNet.hpp:backprop", "include/Trixy/Neuro/Network/Layer/FullyConnected.hpp:backward", "include/Trixy/Neuro/Functional/Function/Activation.hpp", "include/Trixy/Neuro/Functional/Function/Loss.hpp"]}
{"id": "C132", "title": "Gradient descent in floating point follows the exact gradient", "statement": "Training a dense network with gradient descent in IEEE arithmetic moves, in every round of batch and mini-batch training, every parameter by minus the learning rate times the true partial derivative of the mean loss (exact arithmetic, at the current parameters, over exactly the samples of that round), up to an explicit bound computed from the magnitudes; likewise every step of stochastic training on the sample drawn, as long as no layer has accumulated gradients since it was created or reset. Consequences: if the loss bends at most like a parabola of curvature L and rate * L <= 1, such a step lowers the loss by half the rate times the squared gradient, up to the sum of the squared errors over twice the rate; and after K rounds some network on the way had a squared gradient of at most 2 (loss at the start - lower bound) / (rate K) plus the squared errors over the rate squared.", "quantifier": "every dense network of at least two layers with finite parameters, every data set and number of rounds, batch size and sequence of draws, learning rate, loss and activation covered by C131, for the rounds in which no magnitude reaches the largest number; every IEEE format with at least 24 bits and every math library of a given accuracy; the two consequences for every differentiable loss on networks of dense layers", "why_tests_cant": "any number of rounds from any parameters on any data; in floats a wrong gradient and rounding look alike", "anchors": ["include/Trixy/Neuro/Training/UnifiedNet.hpp:batch", "include/Trixy/Neuro/Training/UnifiedNet.hpp:mini_batch", "include/Trixy/Neuro/Training/UnifiedNet.hpp:stochastic", "include/Trixy/Neuro/Network/Layer/FullyConnected.hpp:backward", "include/Trixy/Neuro/Network/Layer/FullyConnected.hpp:accumulate", "include/Trixy/Neuro/Functional/Optimizer/GradDescent.hpp"]}
{"id": "C133", "title": "The checker's losses and accuracies in floating point", "statement": "In IEEE arithmetic, the checker's loss of a sample (MSE, MAE or CCE) and its mean loss over a data set are finite numbers that differ from the true loss (exact network with the same parameters, exact arithmetic, exact inputs) by at most an explicit bound computed from the magnitudes, the error of the network's outputs included. The accuracies full(r) and global(r) count exactly the samples, resp. the single outputs, that the exact network gets within the range, as long as no exact distance is so close to r that its error bound reaches r.", "quantifier": "every network of the kind C115 covers with finite parameters, every sample and data set of up to 2^precision samples, every targets and range, where no magnitude reaches the largest number; every IEEE format with at least 24 bits and every math library of a given accuracy", "why_tests_cant": "all parameters, samples and rounding errors; a float test compares the code's float with another float", "anchors": ["include/Trixy/Neuro/Checker/Core.hpp:loss", "include/Trixy/Neuro/Checker/Accuracy.hpp:full", "include/Trixy/Neuro/Checker/Accuracy.hpp:global", "include/Trixy/Neuro/Functional/Function/Loss.hpp", "include/Trixy/Neuro/Training/UnifiedNet.hpp:loss"]}
{"id": "C134", "title": "The loss the checker reports goes down during floating-point training", "statement": "In IEEE arithmetic, read the loss with the checker, train by plain gradient descent over whole epochs, and read the loss again: every call succeeds, and as long as no round overflows or meets a corner of ReLU, the mean loss bends at most by L between consecutive networks and the learning rate is at most 1/L, the two numbers the program printed satisfy: second <= first - (rate/2) * sum over the rounds of the squared length of the true gradient + (sum over the rounds of the squared error bounds) / (2 rate) + the reading errors of the two checks. The networks passed through are those C132 speaks of, from the initial parameters to the final ones.", "quantifier": "every ready network of dense layers whose last activation is not SoftMax, finite parameters and data, every data set, loss MSE, MAE or CCE, learning rate and number of epochs under the conditions above; every IEEE format with at least 24 bits and every math library of a given accuracy", "why_tests_cant": "all parameters, data, numbers of rounds and rounding errors; a test sees the loss fall in a few runs and cannot tell a rounding artefact from progress", "anchors": ["include/Trixy/Neuro/Training/UnifiedNet.hpp:batch", "include/Trixy/Neuro/Training/UnifiedNet.hpp:loss", "include/Trixy/Neuro/Checker/Core.hpp:loss", "include/Trixy/Neuro/Optimizer/GradDescent.hpp"]}
