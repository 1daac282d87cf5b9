#!/usr/bin/env python3
# Single source for properties.jsonl (run from /verif: python3 tools/gen_properties.py)
import json
P=[]
def p(title, statement, quantifier, why, *anchors):
    P.append(dict(id="C%02d"%(len(P)+1), title=title, statement=statement, quantifier=quantifier,
                  why_tests_cant=why, anchors=list(anchors)))
L="include/Trixy/Lique/"; N="include/Trixy/Neuro/"; LY=N+"Network/Layer/"; O=N+"Functional/Optimizer/"; F=N+"Functional/Function/"
# ---- Lique storage
p("Element addressing is row-major, in bounds and injective",
  "For a Tensor of d x h x w elements (and a Matrix of h x w), t(i,j,k) with in-range indices always denotes an element inside the tensor's own storage, different index triples denote different elements, every stored element is reached by some triple, and t(i,j,k) is the same element as the flat t((i*h+j)*w+k).",
  "every shape whose element count fits size_t, every in-range index tuple",
  "an off-by-one in a stride only shows for particular shapes; the index arithmetic is modulo 2^64",
  L+"Tensor.hpp:at", L+"Matrix.hpp:at", L+"TensorBase.hpp:at", L+"Shape.hpp:Shape")
p("Writing one element changes that element only",
  "After t(i,j,k) = v, reading t(i,j,k) gives v, every other element of t and every element of every other object is unchanged, and no element outside the allocation is touched.",
  "every shape, every in-range index, every value, every memory contents", "needs all pairs of indices and all aliasing situations",
  L+"Tensor.hpp:operator()", L+"Matrix.hpp:operator()", L+"TensorBase.hpp:operator()")
p("Copy-constructing a Tensor yields an independent equal copy",
  "Tensor b(a) has the same shape and elements as a, owns fresh storage, leaves a unchanged; later writes to one are not visible in the other.",
  "every shape and contents", "aliasing must be excluded for all later writes",
  L+"Tensor.hpp:Tensor(const Tensor&)")
p("Copy-constructing a Matrix yields an independent equal copy",
  "Matrix b(a) has the same number of rows, columns, size and elements as a and owns fresh storage - however a obtained its shape (sized constructor, or default constructor followed by resize).",
  "every way of creating a matrix, every shape and contents", "depends on the history of the source object",
  L+"Matrix.hpp:Tensor(const Tensor&)", L+"Matrix.hpp:resize")
p("Copy-constructing a Vector yields an independent equal copy",
  "Vector b(a) has a.size() elements equal to those of a, in fresh storage.",
  "every size and contents", "universally quantified deep-copy claim",
  L+"Vector.hpp:Tensor(const Tensor&)")
p("Copy assignment yields an independent equal copy",
  "After a = b (Vector, Matrix or Tensor, any prior sizes of a and b) a has b's size and elements, storage distinct from b's, a's previous storage is released, b is unchanged and no out-of-bounds access happens; a = a changes nothing.",
  "every pair of prior sizes, every contents", "the failure depends on the relation between the two prior sizes; out-of-bounds access may go unnoticed in a test",
  L+"Tensor.hpp:operator=(const Tensor&)", L+"Matrix.hpp:operator=(const Tensor&)", L+"Vector.hpp:operator=(const Tensor&)")
p("Move construction and move assignment transfer the storage",
  "After a move the target refers to exactly the source's former storage and size, no element is copied, allocated or lost, the source no longer refers to it, and the target's previous storage is released; self-move is a no-op.",
  "every source and target state", "absence of leak/double ownership is a history property",
  L+"Vector.hpp", L+"Matrix.hpp", L+"Tensor.hpp", L+"TensorBase.hpp")
p("No history of tensor operations double-frees, leaks or shares storage",
  "For every sequence of constructions, copies, moves, assignments, resizes, reshapes, swaps, fills and destructions of owning Vector/Matrix/Tensor objects: no storage is released twice or used after release, two live objects never own the same storage, every live allocation is owned by a live object, and destroying all objects leaves no allocation.",
  "every finite sequence of lifecycle operations on any number of objects", "quantifies over all histories",
  L+"Vector.hpp", L+"Matrix.hpp", L+"Tensor.hpp", L+"TensorBase.hpp:swap")
p("resize gives storage and shape that agree",
  "After resize to given dimensions, shape() reports these dimensions, size() is their product, exactly that many elements are allocated, the former storage is released, and shape() of the result is the shape the sized constructor would give.",
  "every previous state, every dimensions fitting size_t", "depends on all prior states",
  L+"Vector.hpp:resize", L+"Matrix.hpp:resize", L+"Tensor.hpp:resize")
p("reshape keeps the elements",
  "reshape to dimensions with the same element count changes no element and no storage: the flat sequence of elements is the same before and after and size() is unchanged; t(i,j,k) afterwards reads the flat element at the new row-major position.",
  "every shape pair with equal volume", "all shapes", L+"Tensor.hpp:reshape", L+"Matrix.hpp:reshape", L+"Vector.hpp:reshape")
p("Element-wise operations act on every element once and nothing else, even when operands alias",
  "fill, copy, apply, add, sub, mul, join (member functions and the Linear ones, in-place and three-operand) set element i of the result to the operation applied to the operands' elements i as they were before the call, for every i; nothing outside the result range changes. This also holds when an operand is the result itself (x.add(x), linear.mul(g,g,g)).",
  "every length, every contents, every scalar arithmetic, exact aliasing or disjoint operands", "aliasing and frame conditions are universally quantified",
  L+"TensorBase.hpp", L+"Linear.hpp", L+"Detail/FunctionDetail.hpp")
p("Value-returning arithmetic on const tensors returns a fresh result",
  "For const tensors a and b of equal non-zero size, a.add(b), a.sub(b), a.mul(b), a.join(v), a.apply(f) return a new tensor holding the element-wise result and leave a and b unchanged, without undefined behaviour.",
  "every non-empty size, every contents", "claim over all sizes/contents", L+"TensorBase.hpp:add(const Tensor&) const")
p("Views share storage and own nothing",
  "A VectorView/MatrixView/TensorView over a tensor's data sees every element write to the tensor and vice versa, and constructing, copying, assigning, reshaping or destroying views never allocates, releases or modifies elements.",
  "every shape, every sequence of view operations", "history property", L+"Vector.hpp", L+"Matrix.hpp", L+"Tensor.hpp", "include/Trixy/Range/View.hpp")
# ---- Linear
p("Row-vector by matrix product",
  "linear.dot(result, v, M) sets result(j) to the sum over i (in index order, starting from 0) of v(i)*M(i,j) for each column j, whatever result held before, and changes nothing else.",
  "every size, every contents, any scalar arithmetic", "all shapes/contents", L+"Linear.hpp:dot(Vector1&,const Vector2&,const Matrix&)")
p("Matrix by column-vector product",
  "linear.dot(result, M, v) sets result(i) to the sum over j in order of M(i,j)*v(j), whatever result held before, and changes nothing else.",
  "every size, every contents, any scalar arithmetic", "all shapes/contents", L+"Linear.hpp:dot(Vector1&,const Matrix&,const Vector2&)")
p("Matrix product",
  "linear.dot(A,B) returns the matrix with element (i,j) = sum over r in order of A(i,r)*B(r,j); linear.dot(result,A,B) sets result to that product whatever result held before.",
  "every compatible shapes and contents", "all shapes/contents/previous contents", L+"Linear.hpp:dot(Matrix1&,const Matrix2&,const Matrix3&)")
p("Outer product", "linear.tensordot(result,c,r) sets result(i,j) = c(i)*r(j) for all i,j and changes nothing else.",
  "every sizes and contents", "all shapes", L+"Linear.hpp:tensordot")
p("Transpose", "linear.transpose(M) has element (i,j) = M(j,i) for every i,j, and transposing twice gives back M exactly.",
  "every shape, every contents", "all shapes (square-only tests miss swapped strides)", L+"Linear.hpp:transpose")
p("Matrix inversion", "For every invertible N x N matrix A (exact arithmetic) linear.inverse(A) returns B with B*A = A*B = identity, never dividing by zero.",
  "every N and every non-singular real matrix", "pivoting paths depend on the values; infinitely many matrices", L+"Linear.hpp:inverse")
p("Inner product", "linear.dot(u,v) returns the sum over i in order of u(i)*v(i); nothing is written.", "every length and contents", "all lengths", L+"Linear.hpp:dot(const Vector1&,const Vector2&)")
# ---- Tool
p("argmax/argmin/max/min return the first extremum",
  "argmax (argmin) of a non-empty range returns the smallest index whose element is not exceeded by (does not exceed) any other element; max/min return that element; the range is not modified; on an empty range argmax/argmin return 0.",
  "every length, every contents under a strict weak order", "ties and positions are universally quantified", L+"Tool.hpp:search", L+"Tool.hpp:argmax", L+"Tool.hpp:argmin")
p("Axis search finds the extremum of each column / row",
  "argmax/argmin(matrix, Axis::X) returns for every column the first row index of its extremum, and with Axis::Y for every row the first column index of its extremum.",
  "every matrix shape and contents", "all shapes and contents", L+"Tool.hpp:search(const Matrix&,Axis,Binary)")
p("accumulate, mean and std compute the statistics of the whole range",
  "accumulate returns init plus all elements in order; mean(range) the arithmetic mean; std(range) the square root of the mean squared deviation from the mean (divisor n-1 when unbiased); exact arithmetic, non-empty range.",
  "every length and contents", "all lengths", L+"Tool.hpp:accumulate", L+"Tool.hpp:mean", L+"Tool.hpp:std")
p("concat joins its operands in order",
  "concat(a,b,...) and concat(container of tensors) return a tensor whose elements are those of the operands one after another.",
  "every number of operands, every sizes and contents", "all sizes", L+"Tool.hpp:concat")
p("block_loop visits exactly the elements of the rectangle",
  "block_loop(A,B,width,f) applies f exactly once, in row-major order, to each element of the rectangle with top-left element A and bottom-right element B inside a matrix of the given width, and to nothing else.",
  "every matrix width, every rectangle", "all rectangles, including one-column and full-width ones", L+"Tool.hpp:block_loop", L+"Detail/FunctionDetail.hpp:block_for_each")
p("multinomial samples a valid index by cumulative probability",
  "multinomial(p, gen, max) of a non-empty range returns an index in range: the first index whose cumulative sum exceeds gen()/max, or the index of the largest element if none does.",
  "every length, contents and generator value", "depends on the random value", L+"Tool.hpp:multinomial")
# ---- Container
C="include/Trixy/Container/Container.hpp"
p("Container behaves as a sequence under every operation history",
  "Under any sequence of emplace_back, pop_back (when non-empty), resize, reserve and element writes on a container built by the default, sized or list constructor, the contents equal those of the same operations on a mathematical list; size() <= capacity(), and no element outside the allocation is touched.",
  "every finite operation sequence", "history property", C+":emplace_back", C+":resize", C+":reserve", C+":pop_back")
p("A copied Container is usable like the original",
  "A container obtained by copy construction or copy assignment holds equal elements in separate storage and afterwards supports every operation history without out-of-bounds access.",
  "every source state and every later operation sequence", "the failure depends on capacity versus size and a later append", C+":Container(const Container&)", C+":operator=")
p("Capacity only grows when needed and reserved appends do not move elements",
  "reserve(n) makes capacity at least n without changing contents; emplace_back while size()<capacity() keeps the storage (pointers to elements stay valid); when full the capacity grows to 2*capacity+1, so the number of reallocations in n appends is logarithmic.",
  "every operation sequence", "amortised bound over all histories", C+":reserve", C+":emplace_back")
p("A moved-from Container is empty",
  "After moving a container away, the source reports size 0 / empty and can be appended to again.",
  "every source state", "history property", C+":Container(Container&&)", C+":operator=(Container&&)")
p("Appending a container's own element is safe",
  "c.emplace_back(c[i]) appends a copy of element i, also when the append reallocates.", "every state and index", "only fails when size equals capacity", C+":emplace_back", C+":reserve")
p("Iterator arithmetic reaches the indicated element", "*(begin()+n) is element n for every n < size().", "every container and n", "all n", C+":iterator::operator+")
# ---- Activations
p("Activation derivatives are the derivatives of the activations",
  "For each built-in scalar activation (identity, relu, elu, lrelu, selu, sigmoid, tanh, softsign, softplus, swish, mod_relu, mod_tanh), df(x) is the derivative of f at x for every real x where f is differentiable (every x except 0 for the piecewise ones with a kink; 0 and 1 for mod_relu).",
  "every real x", "an identity between real functions", F+"ActivationLess.hpp", F+"Activation.hpp")
p("GELU derivative is the derivative of GELU", "gelu's df(x) is the derivative of gelu's f at x (up to the rounding of the printed constants) for every real x.", "every real x", "pointwise checks at 0 and +-1 pass", F+"ActivationLess.hpp:gelu_derived")
p("Activation ranges and monotonicity",
  "sigmoid maps into (0,1), tanh and softsign into (-1,1), relu and softplus are non-negative, relu/elu/lrelu/selu/sigmoid/tanh/softsign/softplus/mod_relu/mod_tanh are non-decreasing, on all reals.",
  "every real x (and every pair x<y)", "infinite domain", F+"ActivationLess.hpp")
p("SoftMax yields a probability distribution",
  "For every non-empty input, SoftMax outputs are positive, sum to 1, are at most 1, preserve the order of the inputs, do not change when a constant is added to all inputs, agree with the unshifted formula exp(x_i)/sum exp(x_j); the largest exponent evaluated is 0.",
  "every length and every real input", "all inputs", F+"Activation.hpp:softmax")
p("Activations may be applied in place",
  "f(x,x) and df(x,x) produce the same values as writing to a separate buffer, for every built-in activation, and only the result range changes.",
  "every activation, length and contents", "aliasing over all inputs", F+"Detail/MacroScope.hpp", F+"Activation.hpp")
# ---- Loss
p("Loss derivatives are the partial derivatives of the losses",
  "For MSE, MSLE and LC, component i of df(y_true,y_pred) is the partial derivative of f with respect to y_pred(i), for all lengths and all real inputs in the loss's domain; likewise for the stand-alone categorical_cross_entropy_derived.",
  "every length, every target/prediction", "partial derivatives for all dimensions", F+"Loss.hpp")
p("MAE derivative points in the direction of increasing error",
  "component i of MAE's df is the partial derivative of MAE's f w.r.t. y_pred(i) wherever y_pred(i) differs from y_true(i).",
  "every length, every target/prediction", "sign claim for all inputs", F+"Loss.hpp:mean_absolute_error_derived")
p("SoftMax with CCE or NLL back-propagates the true gradient",
  "With a SoftMax output layer, the product of the activation derivative and the loss derivative that training feeds back is the gradient of the cross entropy (targets summing to one) - and of the negative log likelihood (one-hot targets) - with respect to the pre-activations.",
  "every number of classes, every pre-activation, every such target", "gradient identity for all dimensions", F+"Loss.hpp", F+"Activation.hpp:softmax_derived")
p("Sigmoid with BCE back-propagates the true gradient",
  "With a Sigmoid output layer and BCE loss, the quantity fed back (df of the loss times df of the activation) is the derivative of the binary cross entropy with respect to the pre-activation.",
  "every target in [0,1], every real pre-activation", "identity between real functions", F+"Loss.hpp:binary_cross_entropy_derived_sigmoid", LY+"FullyConnected.hpp:backward")
p("Losses are zero exactly on perfect predictions",
  "MSE, MAE and LC are non-negative for every input and zero if and only if prediction equals target; MSLE likewise on inputs greater than -1.",
  "every length, target and prediction", "infinite domain", F+"Loss.hpp")
# ---- Optimizers
p("GradDescent and StoGradDescent apply their update rule",
  "update(param,grad) replaces each parameter w by w - lr*g (GradDescent), respectively alpha*w - lr*g with alpha = 1 - lr*decay fixed at construction (StoGradDescent), and touches no other parameter.",
  "every length, contents, learning rate", "frame + all contents", O+"GradDescent.hpp", O+"StoGradDescent.hpp")
p("Momentum follows the velocity recursion over every training history",
  "Over any sequence of update calls on any set of parameter tensors, each tensor follows v0=0, v(t+1)=momentum*v(t)-lr(t)*g(t), w(t+1)=w(t)+v(t+1), with the learning rate in force at each call.",
  "every sequence of updates, tensors, gradients", "history property", O+"Momentum.hpp", O+"Interface.hpp:get")
p("Nestorov follows its recursion over every training history",
  "Over any sequence of update calls: v(t+1)=momentum*v(t)-lr*g(t), w(t+1)=w(t)-lr*g(t)+momentum*v(t+1), per tensor.",
  "every sequence of updates", "history property", O+"Nestorov.hpp")
p("AdaGrad follows its recursion and has bounded steps",
  "Per tensor s(t+1)=s(t)+g^2, w(t+1)=w(t)-lr*g/sqrt(1e-9+s(t+1)); hence every step is at most lr in magnitude.",
  "every sequence of updates", "history property", O+"AdaGrad.hpp")
p("RMSProp follows its recursion and has bounded steps",
  "Per tensor s(t+1)=beta*s(t)+(1-beta)*g^2, w(t+1)=w(t)-lr*g/sqrt(1e-9+s(t+1)); for 0<=beta<1 every step is at most lr/sqrt(1-beta).",
  "every sequence of updates", "history property", O+"RMSProp.hpp")
p("Adam follows the bias-corrected recursion",
  "For each parameter tensor, its k-th update uses m and s recursions with beta1, beta2, bias corrections 1-beta1^k and 1-beta2^k where k counts training iterations (updates of that tensor), and the step lr*mhat/sqrt(1e-9+shat).",
  "every sequence of updates over any number of tensors", "the counter is shared between tensors, visible only with several tensors", O+"Adam.hpp")
p("Optimizer state is kept separately per parameter tensor",
  "Updating one tensor never changes the state used for another: the trajectory of a tensor depends only on its own gradients (and the learning rate), not on interleaved updates of other tensors.",
  "every interleaving of updates", "all interleavings", O+"Interface.hpp:get", O+"Momentum.hpp", O+"Adam.hpp")
p("update does not modify the gradient",
  "optimizer.update(param, grad) leaves grad unchanged.", "every optimizer, contents", "frame condition", O+"GradDescent.hpp", O+"StoGradDescent.hpp", O+"Momentum.hpp", O+"Adam.hpp")
# ---- Layers
p("FullyConnected construction and forward pass",
  "FullyConnected(in,out,act) owns correctly sized zeroed parameters; forward(x) sets value() to act(x.W + B) componentwise, changes no parameter and no gradient, and repeated calls with the same input give the same value; the Raw and Train variants agree.",
  "every size, weights, input, activation, previous state", "all states", LY+"FullyConnected.hpp")
p("FullyConnected backward computes the gradient",
  "After forward(x) and backward(x,d), the bias gradient, weight gradient and delta() are the partial derivatives of sum_k d_k*value_k with respect to B, W and x (exact arithmetic, activation differentiable at the pre-activations); with full=false delta() is left unchanged.",
  "every size, weights, input, delta", "gradient identity for all dimensions", LY+"FullyConnected.hpp:backward")
p("FullyConnected batch accumulation",
  "After reset and k rounds of forward/backward/accumulate, update(opt,alpha) hands the optimizer alpha times the sum of the k per-sample gradients.",
  "every k, every sample sequence", "history property", LY+"FullyConnected.hpp:accumulate", LY+"FullyConnected.hpp:reset", LY+"FullyConnected.hpp:update")
p("A stochastic step uses the current sample's gradient whatever training came before",
  "In stochastic training each update uses the gradient of the sample just presented, also when the network was trained with batch or mini_batch before.",
  "every training history", "depends on history", LY+"FullyConnected.hpp:update", N+"Training/UnifiedNet.hpp:stochastic")
p("Convolution output size and memory safety",
  "For any input, filter not larger than the padded input, padding and non-zero strides, the output is floor((H-F+2P)/S)+1 in each dimension, and forward/backward access only elements inside the tensors, in spite of the unsigned index arithmetic.",
  "every geometry with sizes below 2^62", "wrap-around index arithmetic for all geometries", LY+"Convolutional.hpp")
p("Convolution forward is padded strided cross-correlation",
  "value(f,y,x) = B(f) + sum over i,j,c of padded_input(c, S*y+i-P, S*x+j-P)*W_f(c,i,j), for every output position; parameters unchanged; Raw and Train variants agree.",
  "every geometry, weights and input", "all geometries", LY+"Convolutional.hpp:forward")
p("Convolution backward computes the gradient",
  "With gradients zero before, backward(x,d) leaves in the gradients of W, B and in delta() the partial derivatives of sum d(f,y,x)*value(f,y,x) with respect to W, B and the input.",
  "every geometry, weights, input, delta", "all geometries", LY+"Convolutional.hpp:backward")
p("Convolution gradients start afresh for each batch",
  "After reset(), the gradient applied by update depends only on the samples presented since reset().",
  "every training history", "history property", LY+"Convolutional.hpp:update", LY+"Base.hpp:reset")
p("Max pooling takes the maximum of each window (Raw)",
  "XMaxPooling.forward sets value(d,i,j) to activation applied to the maximum of the input window [i*S,(i+1)*S) x [j*S',(j+1)*S'), when the strides divide the input dimensions; no access outside the tensors.",
  "every geometry with dividing strides, every input", "all geometries", LY+"MaxPooling.hpp")
p("Max pooling is safe for any stride",
  "forward touches only elements inside its tensors for every non-zero stride, including strides that do not divide the input size.",
  "every geometry", "all geometries", LY+"MaxPooling.hpp:forward")
p("Max pooling in training mode computes the same output as in raw mode",
  "MaxPooling.forward (Train) gives value() equal to XMaxPooling.forward (Raw) on the same input.",
  "every input", "all inputs", LY+"MaxPooling.hpp:forward")
p("Max pooling backward routes each delta to the window's maximum",
  "delta(d,i,j) is the incoming delta of the window if (i,j) is the position of that window's (first) maximum and 0 elsewhere (Identity activation).",
  "every geometry with dividing strides, every input and delta", "all geometries", LY+"MaxPooling.hpp:backward")
# ---- Net / training
p("feedforward is the composition of the layers",
  "net.feedforward(x) returns the output of the last layer applied to the output of the previous one, ... applied to x; every intermediate value() is that prefix composition.",
  "every number of layers, every parameters and input", "all nets", N+"Network/UnifiedNet.hpp:feedforward")
p("feedforward is repeatable and leaves the model unchanged",
  "feedforward changes no parameter or gradient, and calling it again with the same input returns the same output irrespective of calls in between with other inputs.",
  "every net of FullyConnected/Convolutional layers, every call sequence", "history property", N+"Network/UnifiedNet.hpp:feedforward")
p("Back-propagation computes the gradient of the loss",
  "After feedforward(x) and backprop(x,t), every layer's weight and bias gradients are the partial derivatives of the loss of the network output w.r.t. these parameters (for a convolution: are increased by them), in exact arithmetic, for networks of dense and convolution layers of any depth >= 2 whose activations and loss supply their true derivative (C33, C38; softmax last with cross entropy, C40).",
  "every depth, all layer sizes, geometries, weights, samples, targets", "chain rule over arbitrary depth", N+"Training/UnifiedNet.hpp:backprop", LY+"FullyConnected.hpp:backward")
p("Training works for a network of any non-zero depth",
  "backprop performs no out-of-range layer access for any network with at least one layer.",
  "every depth", "boundary depth", N+"Training/UnifiedNet.hpp:backprop")
p("batch presents every sample once per epoch and averages",
  "batch(idata,odata,opt,E) performs exactly E optimizer rounds; in each, gradients are reset, every sample index 0..n-1 is presented once in order with its own target, and the update is scaled by 1/n.",
  "every data set size, epochs", "schedule over all sizes", N+"Training/UnifiedNet.hpp:batch")
p("mini_batch partitions the data set",
  "mini_batch with batch size b presents, per epoch, each sample index below b*floor(n/b) exactly once in order, in floor(n/b) batches of b samples, each with its own reset and update scaled by 1/b, and never an index >= n.",
  "every n, b>0, epochs", "schedule over all sizes", N+"Training/UnifiedNet.hpp:mini_batch")
p("stochastic picks valid samples",
  "stochastic performs exactly the requested number of steps, each on a sample index generator()%n that is below n, with its own target, each followed by one update.",
  "every generator sequence, n>0", "all generator outputs", N+"Training/UnifiedNet.hpp:stochastic")
p("Accuracy measures are the stated fractions",
  "normal() is the fraction of samples whose (first) maximal target index equals that of the prediction, full(r) the fraction with all components within r, global(r) the fraction of components strictly within r; all are in [0,1].",
  "every data set and network outputs", "all data sets", N+"Checker/Accuracy.hpp")
p("Mean loss", "loss(idata,odata) is the arithmetic mean of the per-sample losses of the network outputs, samples taken in order (Checker::loss and Training::loss agree).",
  "every data set", "all data sets", N+"Checker/Core.hpp:loss", N+"Training/UnifiedNet.hpp:loss")
p("Networks and trainers can be copied",
  "Copying a TrixyNet or a Training object and destroying both copies releases each layer / loss object exactly once.",
  "every network", "lifetime property", N+"Network/UnifiedNet.hpp:~TrixyNet", N+"Training/UnifiedNet.hpp:Training(const Training&)")
# ---- Regression
p("Linear regression training finds the least-squares solution",
  "After train(X,y) with full column rank design matrix, the weights satisfy the normal equations and minimise the sum of squared residuals over all weight vectors (exact arithmetic).",
  "every sample count/dimension, data", "minimality over all weight vectors", N+"Training/LinearRegression.hpp:train")
p("Polynomial regression training finds the least-squares polynomial",
  "After train(x,y) with at least power+1 distinct abscissae, the weights minimise the sum of squared residuals over all polynomials of that degree (exact arithmetic).",
  "every degree, data", "minimality over all polynomials", N+"Training/PolynomialRegression.hpp:train")
p("Batch and single-sample regression predictions agree",
  "feedforward(batch)(i) equals the single-sample prediction for sample i: W(0)+sum W(j)*x(j-1) (linear), sum W(j)*x^j (polynomial), in exact arithmetic.",
  "every size and contents", "all sizes", N+"Regression/Linear.hpp", N+"Regression/Polynomial.hpp")
p("Regression init installs the given weights",
  "reg.init(w) makes weight() equal to w for a vector w of matching size (passed as an lvalue or as a temporary).",
  "every weight vector", "all contents", N+"Regression/Linear.hpp:init", N+"Regression/Polynomial.hpp:init")
# ---- Serialization
p("Saving and loading a network preserves its function",
  "Deserializing a serialized network of FullyConnected/Convolutional layers gives a network with equal parameters whose feedforward equals the original's on every input.",
  "every network, every input", "all networks and inputs", N+"Serializer/Core.hpp", LY+"FullyConnected.hpp", LY+"Convolutional.hpp", "include/Trixy/Lique/TensorBase.hpp")
p("Saving and loading works for pooling layers",
  "A deserialized network containing MaxPooling layers can be fed forward and gives the original's outputs.",
  "every network with pooling", "all networks", LY+"MaxPooling.hpp")
# ---- Misc
p("RandomIntegral stays in the requested range",
  "With the default generator and an integral type that holds RAND_MAX, random(min,max) returns a value in [min,max] for every generator output and every min<=max whose width does not overflow; every value of a range of at most RAND_MAX+1 values is returned for some generator output.",
  "every min,max, generator output", "all outputs", "include/Trixy/Random/Core.hpp")
p("RandomFloating stays in the requested range",
  "random() is in [0,1] and random(min,max) in [min,max] (exact arithmetic) for every generator output.",
  "every min<=max, generator output", "all outputs", "include/Trixy/Random/Core.hpp")
p("parallel_info splits work soundly",
  "For every size and any hardware thread count the returned number of threads t is at least 1, and for non-empty data at most ceil(size/min_per_thread) and the hardware count, and t*block <= size < t*block + t.",
  "every size, min_per_thread>0, hardware concurrency", "environment dependent", "include/Trixy/Detail/FunctionDetail.hpp:parallel_info")
p("MNIST header decoding",
  "read_header returns the big-endian 32-bit value stored at the given header word, for every file contents, and a file accepted by read_mnist_file is large enough for the count*rows*columns image bytes its header announces.",
  "every file contents", "all 2^32 words; adversarial headers", "test/src/mnist_test/mnist_reader.hpp")
p("Container resize fills with copies of the argument",
  "c.resize(n, value) with n >= size() appends n - size() elements equal to value, whether value is an lvalue or a temporary.",
  "every container, n, value", "all sizes and element types", "include/Trixy/Container/Container.hpp:resize")
p("Optimizer state belongs to a live tensor",
  "After a parameter tensor has been destroyed and another one allocated (possibly at the same address, with another size), updating the new tensor starts from zero state and stays within the optimizer's memory.",
  "every sequence of creations, updates and destructions", "depends on address reuse", "include/Trixy/Neuro/Functional/Optimizer/Interface.hpp:get")
p("A convolution followed by a fully connected layer can be trained",
  "backward of a convolution with output F x OH x OW accepts the delta() of a FullyConnected layer with F*OH*OW inputs placed after it, reading only elements inside that tensor.",
  "every convolution geometry, every fully connected layer of matching size", "all geometries; reads outside a tensor need not show", LY+"Convolutional.hpp:backward", LY+"FullyConnected.hpp:delta")
p("RandomIntegral with any generator",
  "With any callable generator (the template accepts e.g. std::mt19937), random(min,max) is in [min,max] for every generator output and every min<=max of the type.",
  "every generator output, every integral type, every range", "all outputs", "include/Trixy/Random/Core.hpp")
p("Destroying a network releases exactly what building it took",
  "Building a TrixyNet from any sequence of new layers allocates only new memory; whatever is computed with the network afterwards, destroying it succeeds, releases every allocation made by the layers' constructors, and touches no other memory.",
  "every sequence of layer expressions, every initial memory, every later contents of the layers' memory", "all layer sequences and states; leaks and double frees need not show", "include/Trixy/Neuro/Network/UnifiedNet.hpp:~TrixyNet", "include/Trixy/Neuro/Network/UnifiedNet.hpp:add", LY+"FullyConnected.hpp", LY+"Convolutional.hpp", LY+"MaxPooling.hpp")
p("Replacing an activation or a loss releases the old object exactly once",
  "connect(activation) and loss(loss) delete the object used so far and nothing else, and the layer / trainer owns the new one: after its destruction every object has been released once. This includes passing the object already in use, and one activation object given to two layers.",
  "every layer, trainer and object", "lifetime property", LY+"FullyConnected.hpp:connect", LY+"MaxPooling.hpp:connect", "include/Trixy/Neuro/Training/UnifiedNet.hpp:loss")
p("Training with gradient descent always completes",
  "For every network of at least two trainable layers (any mixture of kinds), a trainer prepared for it, a loss and matching data, batch, mini-batch and stochastic training with GradDescent run to the end without an invalid access, for any number of epochs and any batch size, write only to memory of the network and the trainer, and leave them ready for further training.",
  "every network, data set, number of epochs, batch size, generator, learning rate and number type", "all networks, data and lengths of training; an invalid write need not show", N+"Training/UnifiedNet.hpp:batch", N+"Training/UnifiedNet.hpp:mini_batch", N+"Training/UnifiedNet.hpp:stochastic", N+"Functional/Optimizer/GradDescent.hpp")
p("Training with GradDescent is gradient descent on the mean loss",
  "Each update made by batch (all samples), mini_batch (the samples of the mini-batch) and stochastic (one sample) moves every weight and bias by minus the learning rate times the partial derivative of the mean loss over those samples with respect to it (exact arithmetic, where the loss is differentiable).",
  "every network, data set, number of epochs, batch size, learning rate", "all networks, all parameters, all lengths of training; derivatives are limits", N+"Training/UnifiedNet.hpp", LY+"FullyConnected.hpp", LY+"Convolutional.hpp", N+"Functional/Optimizer/GradDescent.hpp")
p("A small enough learning rate decreases the loss",
  "If the mean loss is differentiable at the current parameters and some partial derivative is not zero, there is a bound such that for every positive learning rate below it one epoch of batch training with GradDescent makes the mean loss, as reported by loss(idata, odata), strictly smaller (exact arithmetic).",
  "every network and data set, every learning rate below the bound", "existence of a bound for all rates below it; all networks and data", N+"Training/UnifiedNet.hpp:batch", N+"Training/UnifiedNet.hpp:loss", N+"Functional/Optimizer/GradDescent.hpp")
p("Initialisation draws successive values",
  "net.init(generator) sets the parameters of all layers (dense: biases then weights; convolution: filters then biases), one after the other, to successive values of the generator, whatever kind of function object it is, and changes nothing else.",
  "every network, every generator (state inside the function object or outside)", "all networks and generators; equal weights need not show", N+"Network/UnifiedNet.hpp:init", LY+"FullyConnected.hpp:init", LY+"Convolutional.hpp:init", "include/Trixy/Lique/TensorBase.hpp:fill", "include/Trixy/Lique/Detail/FunctionDetail.hpp:fill")
p("Random numbers in a range, in floating-point arithmetic",
  "RandomFloating gives a finite number between 0 and 1, and random(min, max) a finite number between min and max, for every generator output, in IEEE float and double arithmetic.",
  "every generator output, every min <= max, every IEEE format", "all outputs and ranges; rounding cases are rare", "include/Trixy/Random/Core.hpp")
p("Activations of finite floating-point inputs",
  "On a finite input every activation writes a finite number within its range (sigmoid 0 to 1, tanh, softsign and mod_tanh -1 to 1, relu and softplus not negative, swish between 0 and x) in IEEE arithmetic: no NaN, no infinity.",
  "every finite input, every float format of at least 24 bits, every C math library meeting the stated contract", "all floating-point inputs, including huge ones", N+"Functional/Function/ActivationLess.hpp", N+"Functional/Function/Activation.hpp")
p("Derivatives of activations at finite floating-point inputs",
  "On a finite input the derivative written by every activation is finite (and between 0 and 1 where the exact derivative is) in IEEE arithmetic.",
  "every finite input, every float format of at least 24 bits, every C math library meeting the stated contract", "all floating-point inputs, including huge ones", N+"Functional/Function/ActivationLess.hpp", N+"Functional/Function/Activation.hpp")
p("SoftMax of finite floating-point inputs is a probability vector",
  "On finite inputs of any size SoftMax writes finite numbers between 0 and 1 whose exact sum is within an explicit rounding bound of 1, and with a monotone exp a larger input never gets a smaller output, in IEEE arithmetic.",
  "every non-empty vector of finite inputs, every float format, every C math library meeting the stated contract", "all floating-point inputs, including huge ones; all sizes", N+"Functional/Function/Activation.hpp:softmax")
p("unstable_softmax of finite floating-point inputs is finite",
  "On finite inputs unstable_softmax writes finite numbers between 0 and 1 (up to rounding) in IEEE arithmetic.",
  "every non-empty vector of finite inputs, every float format, every C math library meeting the stated contract", "all floating-point inputs, including huge ones; all sizes", N+"Functional/Function/Activation.hpp:unstable_softmax")
p("Dot products and matrix products in floating-point arithmetic",
  "Every entry computed by Linear::dot (vector.vector, vector.matrix, matrix.vector, matrix.matrix) differs from the exact sum of products by at most ((1+u)^(n+1) - 1) sum|a b| + n eta (1+u)^(n+1); a finite entry comes from finite operands only, finite operands that are not too large give a finite entry, and integers up to 2^precision are handled without any error.",
  "every size, every contents, every IEEE format", "all sizes and floating-point contents; rounding errors are data dependent", "include/Trixy/Lique/Linear.hpp:dot")
p("Dense layers in floating-point arithmetic",
  "forward of a dense layer applies the activation to pre-activations that differ from x.W + B by at most the classical rounding bound for n+2 roundings; finite inputs and parameters that are not too large give finite outputs; the gradients are within one rounding of their factors and the delta passed on within the bound of a dot product.",
  "every layer size, parameters, input, activation, IEEE format", "all sizes and floating-point contents", LY+"FullyConnected.hpp:forward", LY+"FullyConnected.hpp:backward")
p("Convolution layers in floating-point arithmetic",
  "Every output of a convolution differs from the exact correlation by at most the classical rounding bound for one rounding per filter element; every gradient entry written by backward differs from the old gradient plus the exact partial derivative by at most the bound for the number of terms, and the delta from the exact derivative; results are finite when the bound stays below the largest number.",
  "every geometry, parameters, input, delta, IEEE format", "all geometries and floating-point contents; derivatives are limits", LY+"Convolutional.hpp:forward", LY+"Convolutional.hpp:backward")
p("Losses of probabilities in floating-point arithmetic",
  "For any number of targets and predictions between 0 and 1, the MSE, MAE, CCE, MSLE and log-cosh losses are finite numbers, and not negative except CCE, in IEEE arithmetic.",
  "every size, all contents in [0,1], every float format of at least 24 bits, every C math library meeting the stated contract", "all sizes and floating-point contents; the sums saturate only for huge sizes", N+"Functional/Function/Loss.hpp")
p("Regression losses of any finite numbers in floating-point arithmetic",
  "MSE, MAE and log-cosh of finite targets and predictions are never NaN and never negative; MSLE of non-negative ones is finite; a perfect prediction has loss exactly 0 and only a perfect one has mean absolute error 0; finite MAE and MSE values differ from the exact ones by at most the rounding bound for one rounding per element.",
  "every size, all finite contents, every float format of at least 24 bits, every C math library meeting the stated contract", "all sizes and floating-point contents, including huge ones", N+"Functional/Function/Loss.hpp")
p("Cross-entropy, log-likelihood and log-cosh losses are finite",
  "BCE and NLL of probabilities, and log-cosh of finite numbers, are finite in IEEE arithmetic: the epsilon in the formula keeps the logarithms finite.",
  "every size, all contents in [0,1] (log-cosh: all finite), float and double", "all floating-point contents, including exact 0 and 1", N+"Functional/Function/Loss.hpp")
p("Loss derivatives in floating-point arithmetic",
  "The derivative written by every loss at targets and predictions between 0 and 1 is a finite number between -1 and 1 in every element; at any finite numbers that of MAE is exactly the sign of target minus prediction, that of log-cosh is between -1 and 1, and that of MSE, CCE and NLL is prediction minus target with one rounding.",
  "every size, all contents, every float format of at least 24 bits, every C math library meeting the stated contract", "all sizes and floating-point contents", N+"Functional/Function/Loss.hpp")
p("Training with every optimizer always completes",
  "For every network of at least two trainable layers, a trainer prepared for it, a loss, matching data and an optimizer of any class (GradDescent, StoGradDescent, Momentum, Nestorov, AdaGrad, RMSProp, Adam), new or already used with this network, batch, mini-batch and stochastic training run to the end without an invalid access for any number of epochs and any batch size, write only to memory of the network, the trainer and the optimizer's own buffers, and leave all of them ready for the next call.",
  "every network, data set, number of epochs, batch size, generator, optimizer class and hyper-parameters, every earlier use of the optimizer, every number type", "all networks, data, lengths of training and optimizer histories; an invalid write into another tensor's buffer need not show", N+"Training/UnifiedNet.hpp:batch", N+"Training/UnifiedNet.hpp:mini_batch", N+"Training/UnifiedNet.hpp:stochastic", N+"Functional/Optimizer/Momentum.hpp", N+"Functional/Optimizer/AdaGrad.hpp", N+"Functional/Optimizer/RMSProp.hpp", N+"Functional/Optimizer/Adam.hpp")
p("Training applies the optimizer's rule to the gradients of the mean loss",
  "In batch, mini-batch and stochastic training from a new optimizer every weight and bias follows the textbook recurrence of the optimizer's class, fed at each update with the partial derivative of the mean loss over that update's samples (exact arithmetic, where the loss is differentiable): the optimizer's state of one tensor is never mixed up with that of another.",
  "every network, data set, number of epochs, batch size, optimizer class, hyper-parameters", "all networks, all parameters, all lengths of training; derivatives are limits", N+"Training/UnifiedNet.hpp", LY+"FullyConnected.hpp:update", LY+"Convolutional.hpp:update", N+"Functional/Optimizer/Adam.hpp", N+"Functional/Optimizer/Momentum.hpp")
p("Evaluating between training calls does not change the training",
  "In any sequence of training calls (batch, mini-batch, stochastic) and evaluation calls (prediction, the trainer's mean loss, the checker's loss and its three accuracies) every call completes, and the weights, biases, accumulation flags and complete optimizer state at the end are exactly those of the same sequence with the evaluation calls left out, in every number type: a program may monitor its training without influencing it.",
  "every network of two or more layers (dense, convolution, max pooling), data set, optimizer class and history, every sequence of calls, every evaluation data set, every number type", "all interleavings of calls and all evaluation data; forward passes overwrite buffers that training reads later", N+"Training/UnifiedNet.hpp", N+"Network/UnifiedNet.hpp:feedforward", N+"Checker/Accuracy.hpp", N+"Checker/Core.hpp", LY+"FullyConnected.hpp:forward", LY+"Convolutional.hpp:forward", LY+"MaxPooling.hpp:forward")
p("The order of the samples in a batch does not matter in exact arithmetic",
  "Batch training on the same pairs of samples and targets in any other order, and mini-batch training with the samples reordered inside their mini-batches, ends with the same value in every weight and bias, the same accumulation flags and the same complete optimizer state.",
  "every network of at least two dense and convolution layers, any parameters and buffer contents, every data set and every permutation of it, any number of epochs, batch size, loss, optimizer class and optimizer history", "all permutations of all data sets; in floating point the results differ by rounding, so tests can only compare approximately", N+"Training/UnifiedNet.hpp:batch", N+"Training/UnifiedNet.hpp:mini_batch", LY+"FullyConnected.hpp:accumulateGradients", LY+"Convolutional.hpp:backward")
p("Training resumes from a saved network",
  "A network is saved between two training calls and loaded in another program. If that program's optimizer has the same class, settings, counters and accumulators and its data have the same values, then training the loaded network there ends with the same weights and biases, and the same optimizer state, as training on without interruption, in every number type.",
  "every network of dense layers, moment of saving, loading program's memory, data set, number of epochs, batch size, generator, loss, optimizer class and optimizer history", "all networks, histories and lengths of training; state that is not in the archive may matter only much later", N+"Network/UnifiedNet.hpp:serialize", N+"Serializer/Core.hpp", N+"Training/UnifiedNet.hpp", LY+"FullyConnected.hpp:serialize", LY+"Convolutional.hpp:serialize")
p("Bounded gradients never make a parameter overflow",
  "In float and double arithmetic with hyper-parameters in their usual ranges (any optimizer; decay with 0 <= rate*decay <= 2, momentum factor of magnitude at most 1, betas in [0,1)), if every learning rate is at most 2^a and every gradient component at most 2^b in magnitude, then parameters that start at most 2^J in magnitude (J at least 3*precision+17+a+b and below the exponent limit) are finite and at most 2^J after any number of updates of any tensors in any order.",
  "every optimizer class and usual hyper-parameters, every number of updates, all tensors and gradients within the bounds, every IEEE format of at least 24 bits with enough exponent range", "no bound on the number of updates: saturation, not the sum of the steps, keeps the value finite", N+"Functional/Optimizer/GradDescent.hpp", N+"Functional/Optimizer/Momentum.hpp", N+"Functional/Optimizer/Adam.hpp", N+"Functional/Optimizer/RMSProp.hpp")
p("AdaGrad and RMSProp tolerate every finite gradient in floating-point arithmetic",
  "In float and double arithmetic AdaGrad and RMSProp (0 < beta < 1) keep parameters finite for every sequence of finite gradients, however large; one update moves a parameter by at most about rate (AdaGrad) or rate/sqrt(1-beta) (RMSProp) plus rounding and never to NaN; a gradient whose square overflows stops the component for good instead of destroying it. With beta = 0 RMSProp does not have this property: such a gradient makes the parameter NaN at the next update.",
  "every sequence of finite gradients and updates, learning rates up to 2^a, every IEEE format of at least 24 bits with enough exponent range", "all gradients including those whose square overflows or underflows, any number of updates", N+"Functional/Optimizer/AdaGrad.hpp", N+"Functional/Optimizer/RMSProp.hpp", "include/Trixy/Detail/FunctionDetail.hpp:invert_sqrt")
p("Rounding error of gradient descent over a whole training",
  "After any number of GradDescent updates in IEEE arithmetic a finite parameter differs from the exact rule applied to the same learning rates and gradients by at most the rounding bound for one rounding per update relative to |initial value| + sum of |rate*gradient|; if that quantity plus the bound is below the overflow threshold the parameter is finite.",
  "every number of updates, all learning rates, gradients and initial values, every IEEE format", "all floating-point histories of any length", N+"Functional/Optimizer/GradDescent.hpp")
p("Every optimizer's first epoch decreases the loss if its learning rate is small",
  "For a network ready for training at a point where the gradient of the mean loss over the data is not zero, and a new optimizer of any class (Nesterov momentum factor above -1, betas in [0,1)), there is a bound such that every positive learning rate below it makes one epoch of batch training decrease the mean loss; with weight decay, StoGradDescent decreases the mean loss plus decay/2 times the sum of the squares of all weights and biases. For dense networks the values returned by loss() before and after show it.",
  "every network, data set, loss and parameters where the loss is differentiable, every optimizer class and its constants", "a statement about all parameter values and all small learning rates; the bound depends on the point", N+"Training/UnifiedNet.hpp:batch", N+"Training/UnifiedNet.hpp:loss", N+"Functional/Optimizer/StoGradDescent.hpp", N+"Functional/Optimizer/Momentum.hpp", N+"Functional/Optimizer/Nestorov.hpp", N+"Functional/Optimizer/AdaGrad.hpp", N+"Functional/Optimizer/RMSProp.hpp", N+"Functional/Optimizer/Adam.hpp")
p("AdaGrad and RMSProp can always go on with a smaller learning rate",
  "After any sequence of batch and mini-batch trainings and learning rate changes with an AdaGrad or RMSProp optimizer, wherever the mean loss is differentiable with non-zero gradient there is a bound such that setting any positive learning rate below it makes the next epoch of batch training decrease the mean loss: the history in the accumulators never turns a step uphill.",
  "every network of dense layers (for others: with zero gradient tensors), data set, loss, history of training calls and rates", "all histories and all small rates", N+"Training/UnifiedNet.hpp:batch", N+"Training/UnifiedNet.hpp:mini_batch", N+"Functional/Optimizer/AdaGrad.hpp", N+"Functional/Optimizer/RMSProp.hpp", "include/Trixy/Detail/FunctionDetail.hpp:invert_sqrt")
p("Predictions in floating-point arithmetic are close to those of the exact network",
  "Feeding a sample of finite numbers through a network of dense, convolution and (inference class) max pooling layers with finite parameters in IEEE arithmetic gives, for every activation but GELU, SELU and SoftPlus, only finite outputs, each within an explicit bound of the exact real-number network with the same parameters on the exact inputs. The bound composes layer by layer: input errors weighted by |weights|, the classical rounding bound of each sum, the activation's Lipschitz constant and its own rounding error; the only condition is that no sum's magnitude comes near overflow.",
  "every network topology, parameters, inputs with any componentwise error, IEEE format of at least 24 bits, math library with exp of relative and tanh/expm1 of absolute accuracy c", "all inputs, parameters and depths; rounding errors differ for every one of them", N+"Network/UnifiedNet.hpp:feedforward", LY+"FullyConnected.hpp:forward", LY+"Convolutional.hpp:forward", LY+"MaxPooling.hpp:forward", "include/Trixy/Detail/FunctionDetail.hpp")
p("Rounding does not change clear classifications",
  "Where the exact network's best output exceeds every other by more than the error bounds (of the preceding property) of the two, argmax of the computed outputs is that class; if this holds for all samples and the targets are finite, Accuracy::normal counts exactly the samples the exact network classifies correctly.",
  "every network, data set, parameters, error bounds and number of classes as above", "all inputs with a clear margin; a single rounding could flip a comparison", N+"Network/UnifiedNet.hpp:feedforward", "include/Trixy/Lique/Tool.hpp:argmax", N+"Checker/Accuracy.hpp:normal")
p("A locked tensor keeps its shape and its storage",
  "A tensor, matrix or vector wrapped in a locker keeps its class, its shape and the very same allocation (so data() pointers stay valid) from construction to destruction, whatever the program does with it and with other objects, unless it is moved from or loaded from an archive; objects that no operation targets keep every element; ownership stays exclusive. False if the program uses the reference returned by copy/fill/add/...: through it swap and assignment reach the locked object, changing its shape or making two objects own one allocation.",
  "every finite history of constructions, copies, moves, assignments, resizes, swaps, element-wise operations and destructions of plain and locked objects", "all histories of operations on any number of objects", "include/Trixy/Locker/Tensor.hpp", "include/Trixy/Locker/Matrix.hpp", "include/Trixy/Locker/Vector.hpp", L+"TensorBase.hpp:swap", L+"TensorBase.hpp:operator=")
p("Gradient descent converges",
  "A program that repeatedly computes the gradient of a function F with L-Lipschitz gradient at its parameters and updates every tensor once with GradDescent at rates in (0, 1/L] lowers F in every round by at least rate/2 times the squared gradient norm, so some gradient used is as small as the sum of the rates allows; for convex F the final value exceeds that of any other point by at most squared distance over twice the sum of the rates, for c-strongly convex F the squared distance to the minimum shrinks by the factor 1 - c*rate every round; with another convex function in every round the regret against any fixed point has the classical bound; StoGradDescent with weight decay converges linearly to the minimum of F + decay/2 |x|^2 (exact arithmetic).",
  "every function, starting point, number of tensors and their sizes, order of the updates, number of rounds, rates in the range, every thing done between updates", "any number of rounds of any objective; convergence is a statement about limits", N+"Functional/Optimizer/GradDescent.hpp", N+"Functional/Optimizer/StoGradDescent.hpp")
p("Momentum converges on convex objectives",
  "With momentum factor mu in [0,1) and a constant rate a with a*L <= 1 - mu the Momentum optimizer, fed with the gradients of a convex function with L-Lipschitz gradient, visits within n rounds a point whose value exceeds the minimum by at most ((1-mu)/(2a) |start - minimum|^2 + mu/(1-mu) (F(start) - F(minimum)))/n (exact arithmetic).",
  "every convex function, starting point, momentum factor, rate in the range, number of rounds, tensors and orders of update", "any number of rounds; velocities of all tensors carry over between them", N+"Functional/Optimizer/Momentum.hpp")
p("Nestorov is Nesterov's accelerated method",
  "With rate 1/L and momentum factor (1-q)/(1+q), q = sqrt(c/L), the Nestorov optimizer fed with the gradients of a c-strongly convex function with L-Lipschitz gradient at the tensors' values reaches after n rounds a point with c/2 |x - minimum|^2 <= (1-q)^n (F(start) - F(minimum) + c/2 |start - minimum|^2): the accelerated rate, although the tensors hold the look-ahead points (exact arithmetic).",
  "every strongly convex function, starting point, number of rounds, tensors and orders of update", "any number of rounds; the reformulated update must be equivalent to the textbook method", N+"Functional/Optimizer/Nestorov.hpp")
p("AdaGrad's regret bound",
  "With a constant rate a, AdaGrad fed with subgradients of arbitrary convex functions (another one in every round), at points within D of z in every coordinate, loses against z in total at most (D^2/(2a) + a) times the sum over all coordinates of sqrt(1e-9 + sum of squared gradients), for every z (exact arithmetic).",
  "every sequence of convex functions, comparator, rate, number of rounds, tensors and orders of update", "any number of rounds and any adversarial choice of functions", N+"Functional/Optimizer/AdaGrad.hpp", "include/Trixy/Detail/FunctionDetail.hpp:invert_sqrt")
p("Constructors build what they are asked for",
  "Every constructor of vector, matrix and tensor (sizes, sizes and a value, sizes and a pointer, a range, a list, a shape) makes an object that reports the given dimensions and owns a new allocation of exactly that many elements: uninitialised, all equal to the value, or equal to the source in order; nothing else in memory changes. A matrix of a shape gets depth*height rows. resize(shape) frees the old allocation and takes the new dimensions; Vector::reshape only changes the reported width; views refer to the given memory with the given dimensions.",
  "all sizes whose product fits in size_t, all values, source ranges and lists, all states of memory", "all sizes and all contents", L+"Vector.hpp", L+"Matrix.hpp", L+"Tensor.hpp", L+"Shape.hpp")
p("Free derivative functions",
  "sigmoid_derived_self applied to sigmoid(x) is the derivative of sigmoid at x. binary_cross_entropy_derived gives, for predictions in [0, 1 - 1e-9), the partial derivatives of the binary cross entropy up to exactly (1-t)*2e-9/((1-p)^2 - 1e-18); it is false that it gives the derivative: for saturated predictions above 1 - 1e-9 with targets up to 1/2 its sign is wrong in every component (the guard is added to p - 1 instead of 1 - p).",
  "all real x; all numbers of outputs, targets and predictions in the given ranges", "all real inputs; the error only dominates next to saturation", N+"Functional/Function/Loss.hpp:binary_cross_entropy_derived", N+"Functional/Function/ActivationLess.hpp:sigmoid_derived_self")
p("A whole program runs without undefined behaviour",
  "A program that builds a network of at least two layers with matching sizes, initialises it with any generator, makes a trainer for it, sets a loss and then makes any sequence of calls - batch, mini-batch and stochastic training with a new optimizer, predictions, mean loss, checker loss and the accuracies on data sets in memory - completes every call (no access outside an allocation, no read of uninitialised memory, no double free), keeps the topology and the data, and stays ready for more training. In particular simple_test.cpp and mnist_test.cpp of the repository do, with any data of the right sizes. Layers report the input and output shapes they were built for; a dense layer built from two shapes flattens them.",
  "every topology without a convolution in front of a dense layer, data set, generator, loss, optimizer, number type and sequence of calls, every initial memory and assignment of distinct addresses", "all call sequences on all networks and data", N+"Network/UnifiedNet.hpp", N+"Training/UnifiedNet.hpp", N+"Checker/Core.hpp", N+"Checker/Accuracy.hpp", LY+"FullyConnected.hpp", LY+"Convolutional.hpp", LY+"MaxPooling.hpp", "test/src/simple_test.cpp", "test/src/mnist_test/mnist_test.cpp")
p("Training in floating point never produces NaN or infinity",
  "In IEEE arithmetic, training a network of dense layers from finite parameters, with any calls in any order and any number of epochs, keeps every parameter finite and below a fixed power of two and all predictions finite, provided the exponents computed from the topology leave room: with AdaGrad or RMSProp the parameters only need room for the learning rate (2^(prec+4) suffices for rates up to 1 and beta up to 15/16) whatever the gradients, with gradient descent and the other classes room for the largest gradient the layer can get. In particular simple_test.cpp's and mnist_test.cpp's networks trained with AdaGrad or RMSProp on data between -1 and 1 stay finite in float and in double, with batches of any size. Activations whose value or derivative overflows (GELU, Swish, SoftPlus) and the logarithmic loss MSLE are excluded.",
  "every dense topology within the exponent range, data set, generator, loss, optimizer of the seven classes, batch sizes and sequence of calls of any length; every IEEE format with at least 24 bits and emax >= 5 prec + 8, every math library meeting the accuracy contract", "any number of updates; a single overflow anywhere would spread through the whole network", N+"Training/UnifiedNet.hpp", N+"Functional/Optimizer/AdaGrad.hpp", N+"Functional/Optimizer/RMSProp.hpp", N+"Functional/Optimizer/Adam.hpp", LY+"FullyConnected.hpp", "test/src/simple_test.cpp", "test/src/mnist_test/mnist_test.cpp")
p("Adam's steps are bounded whatever the size of the gradients, also in floating point",
  "In IEEE arithmetic, with rates such that beta1^2 <= theta * beta2 (theta < 1, up to a few rounding errors; the class's defaults 0.9 and 0.999 qualify with theta = 0.82), every update of an Adam optimizer moves each parameter by at most learning rate / sqrt((1-theta)(1-beta2)) plus rounding - at most 75 learning rates with the defaults - however large the gradients are (as long as their double does not overflow), and never to NaN; if the square of a gradient overflows, that component stays where it is in all later updates; so the parameters stay below a fixed power of two for ever. In particular simple_test.cpp's and mnist_test.cpp's networks trained with AdamOptimizer(net, 0.01f) on data between -1 and 1 stay finite in float and in double, with batches of any size and any number of epochs.",
  "every history of updates of any number of tensors, all gradients below 2^(emax-2), all rates in the range, all dense topologies within the exponent range; every IEEE format with at least 24 bits and emax >= 5 prec + 8", "any number of updates with adversarial gradients: the ratio of two rounded running averages must stay bounded for ever", N+"Functional/Optimizer/Adam.hpp", "include/Trixy/Detail/FunctionDetail.hpp:invert_sqrt", "test/src/simple_test.cpp", "test/src/mnist_test/mnist_test.cpp")
p("Programs that use a regression run without undefined behaviour and do what they say",
  "A program that constructs a linear or polynomial regression, makes any sequence of calls on it - training, batch and single predictions, the checker's loss and the guide's global and full accuracies, reset - and destroys it completes every call in every number type, also when the normal equations are singular or divisions overflow; predictions, losses, counts and flags are those of the weights computed by the last training since construction or reset, the vectors returned are the only memory left allocated, and no other memory changes. In exact arithmetic, if the data determine the weights, training finds the unique least-squares weights, and on data that follow a model the program reports exactly that model's values, loss 0 and every sample within any positive range.",
  "every size or degree, data sets of any size in memory, every sequence of calls that trains before it predicts, every number type including IEEE floats, every memory at the start", "all call sequences on all data including singular systems", N+"Regression/Linear.hpp", N+"Regression/Polynomial.hpp", N+"Training/LinearRegression.hpp:train", N+"Training/PolynomialRegression.hpp:train", N+"Checker/Core.hpp:loss", N+"Checker/Accuracy.hpp", "include/Trixy/Lique/Linear.hpp:inverse", "test/src/regression_test.cpp")
p("Programs with many containers, plain and locked, behave like programs on lists",
  "A program that creates, copies, moves, assigns, modifies and destroys any number of Containers and ContainerLockers behaves like the same program on mathematical lists: given rules on sizes and capacities say exactly which statements are allowed, an allowed program never misbehaves, no two objects ever share storage, other memory is untouched, nothing leaks and destroying all objects releases everything; a program that breaks a rule does reach undefined behaviour. A ContainerLocker keeps its storage, size and capacity until it is destroyed or moved into another locker, and its elements change only by element writes through it.",
  "every finite sequence of statements over any number of objects, every element type, every memory at the start", "all programs over all objects, including copies of containers with spare capacity and moved-from objects", "include/Trixy/Container/Container.hpp", "include/Trixy/Locker/Container.hpp:Locker")
p("Searches, statistics and sampling in floating point",
  "On any float or double data, infinities and NaN included, argmax/argmin (and along Axis::X, column by column) return the first largest/smallest number, skipping NaN elements, except that a NaN in first position is returned whatever follows; max/min return that element. accumulate and mean of finite data are finite and within the classical rounding bound of the exact values unless the sum of the magnitudes is near overflow; std is never negative and its square is within the bound of the exact variance plus (n/k) times the squared error of the computed mean; a finite result means all data are finite. The mean and std of nothing and the unbiased std of one number are NaN, the biased one is 0. multinomial with non-negative weights, some of them positive, never draws an index of weight zero, however the sums round.",
  "every data set of any size (for mean and std up to 2^precision elements), every generator value, every IEEE format", "all floating-point data; NaN breaks the order the search relies on, and rounding errors grow with the number of elements", "include/Trixy/Lique/Tool.hpp:search", "include/Trixy/Lique/Tool.hpp:accumulate", "include/Trixy/Lique/Tool.hpp:mean", "include/Trixy/Lique/Tool.hpp:std", "include/Trixy/Lique/Tool.hpp:multinomial")
p("How often random choices come out",
  "Counting the outputs of the generator: random(min, max) of an integer type gives every value of the range for floor((RAND_MAX + 1) / width) of the RAND_MAX + 1 outputs of the default generator, or for one more; stochastic training presents every sample at every step for floor(N / n) of N outputs, or one more, whatever the other draws; the number of outputs for which random(min, max) of a floating type is at most c differs by at most one from the uniform share of c (exact arithmetic); multinomial draws index k for w_k * rand_max of the rand_max + 1 outputs, up to one, except that what the weights lack to 1 and the last output go to the first largest weight.",
  "every range and integral type the range fits in, every data set size, step and history of draws, every threshold, every non-negative weights with sum at most 1", "a test draws a few numbers; the claim counts all outputs of the generator", "include/Trixy/Random/Core.hpp:RandomIntegral", "include/Trixy/Random/Core.hpp:RandomFloating", "include/Trixy/Lique/Tool.hpp:multinomial", N+"Training/UnifiedNet.hpp:stochastic")
p("Gradients computed in floating point are close to the true derivatives",
  "feedforward followed by backprop on a sample, in IEEE arithmetic, leaves in every gradient tensor of every layer of a dense network finite numbers that differ from the true partial derivatives of the loss of the exact network (same parameters, exact arithmetic, exact inputs) by at most an explicit bound, computed layer by layer from the magnitudes: the rounding of the sums and products, the accuracy of the math library, the error of the inputs, and how the slopes of the activations react to errors. The forward pass's errors are included. Required: no magnitude reaches the largest number, and the error bound of a pre-activation does not straddle a corner of its activation (as at 0 for ReLU), where an arbitrarily small error would flip the slope.",
  "every dense network of at least two layers with finite parameters, every sample, target and loss among MSE, LC and, behind SoftMax, CCE and NLL; all activations except GELU, SELU, SoftPlus and Swish; every IEEE format with at least 24 bits and every math library of a given accuracy", "all parameters, inputs and topologies; a finite-difference test in floats cannot tell a wrong gradient from cancellation", N+"Training/UnifiedNet.hpp:backprop", LY+"FullyConnected.hpp:backward", N+"Functional/Function/Activation.hpp", N+"Functional/Function/Loss.hpp")
p("Gradient descent in floating point follows the exact gradient",
  "Training a dense network with gradient descent in IEEE arithmetic moves, in every round of batch and mini-batch training, every parameter by minus the learning rate times the true partial derivative of the mean loss (exact arithmetic, at the current parameters, over exactly the samples of that round), up to an explicit bound computed from the magnitudes; likewise every step of stochastic training on the sample drawn, as long as no layer has accumulated gradients since it was created or reset. Consequences: if the loss bends at most like a parabola of curvature L and rate * L <= 1, such a step lowers the loss by half the rate times the squared gradient, up to the sum of the squared errors over twice the rate; and after K rounds some network on the way had a squared gradient of at most 2 (loss at the start - lower bound) / (rate K) plus the squared errors over the rate squared.",
  "every dense network of at least two layers with finite parameters, every data set and number of rounds, batch size and sequence of draws, learning rate, loss and activation covered by C131, for the rounds in which no magnitude reaches the largest number; every IEEE format with at least 24 bits and every math library of a given accuracy; the two consequences for every differentiable loss on networks of dense layers", "any number of rounds from any parameters on any data; in floats a wrong gradient and rounding look alike", N+"Training/UnifiedNet.hpp:batch", N+"Training/UnifiedNet.hpp:mini_batch", N+"Training/UnifiedNet.hpp:stochastic", LY+"FullyConnected.hpp:backward", LY+"FullyConnected.hpp:accumulate", N+"Functional/Optimizer/GradDescent.hpp")
p("The checker's losses and accuracies in floating point",
  "In IEEE arithmetic, the checker's loss of a sample (MSE, MAE or CCE) and its mean loss over a data set are finite numbers that differ from the true loss (exact network with the same parameters, exact arithmetic, exact inputs) by at most an explicit bound computed from the magnitudes, the error of the network's outputs included. The accuracies full(r) and global(r) count exactly the samples, resp. the single outputs, that the exact network gets within the range, as long as no exact distance is so close to r that its error bound reaches r.",
  "every network of the kind C115 covers with finite parameters, every sample and data set of up to 2^precision samples, every targets and range, where no magnitude reaches the largest number; every IEEE format with at least 24 bits and every math library of a given accuracy", "all parameters, samples and rounding errors; a float test compares the code's float with another float", N+"Checker/Core.hpp:loss", N+"Checker/Accuracy.hpp:full", N+"Checker/Accuracy.hpp:global", N+"Functional/Function/Loss.hpp", N+"Training/UnifiedNet.hpp:loss")
p("The loss the checker reports goes down during floating-point training",
  "In IEEE arithmetic, read the loss with the checker, train by plain gradient descent over whole epochs, and read the loss again: every call succeeds, and as long as no round overflows or meets a corner of ReLU, the mean loss bends at most by L between consecutive networks and the learning rate is at most 1/L, the two numbers the program printed satisfy: second <= first - (rate/2) * sum over the rounds of the squared length of the true gradient + (sum over the rounds of the squared error bounds) / (2 rate) + the reading errors of the two checks. The networks passed through are those C132 speaks of, from the initial parameters to the final ones.",
  "every ready network of dense layers whose last activation is not SoftMax, finite parameters and data, every data set, loss MSE, MAE or CCE, learning rate and number of epochs under the conditions above; every IEEE format with at least 24 bits and every math library of a given accuracy", "all parameters, data, numbers of rounds and rounding errors; a test sees the loss fall in a few runs and cannot tell a rounding artefact from progress", N+"Training/UnifiedNet.hpp:batch", N+"Training/UnifiedNet.hpp:loss", N+"Checker/Core.hpp:loss", N+"Optimizer/GradDescent.hpp")
open('/verif/properties.jsonl','w').write(''.join(json.dumps(x)+'\n' for x in P))
print(len(P))
