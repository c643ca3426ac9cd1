{"id": "C01", "title": "Dataset from a flat vector keeps whole sequences and indexes in bounds", "statement": "Dataset(data, feature_size, sequence_size, labels): the stored data is a prefix of the given vector, its length is size()*feature_size(), size() is a multiple of sequence_size(), fewer than one full sequence is dropped, and entry(i) for every i < size() is exactly the i-th block of feature_size() consecutive values (never an out-of-range read).", "quantifier": "every vector, every feature size, every sequence size (including zero and over-long ones), every row index", "why_tests_cant": "The clamping and truncation rules interact through divisions; tests check a few sizes, the claim is about all sizes and all rows.", "anchors": ["source/data/dataset.hpp: Dataset(Vec,...)", "source/data/dataset.hpp: size", "source/data/dataset.hpp: entry"]}
{"id": "C02", "title": "Dataset from a matrix: every advertised row is readable exactly when whole sequences are given", "statement": "Dataset(Mat, sequence_size): all rows i < size() can be read without leaving the stored buffer if and only if the effective sequence size divides the number of rows given (or rows are empty); when it does not, size() still counts the dropped rows and reading one is out of bounds.", "quantifier": "every matrix (ragged rows included) and every sequence size", "why_tests_cant": "The failure needs a non-dividing sequence size and reads past the end of a vector, which a passing test cannot observe reliably.", "anchors": ["source/data/dataset.hpp: Dataset(Mat,...)", "source/data/dataset.hpp: size", "source/data/dataset.hpp: entry"]}
{"id": "C03", "title": "Dataset from a cube keeps the common leading block of every sequence", "statement": "Dataset(Cub): every sequence is cut to the shortest sequence length and every row to the shortest row length found anywhere; the kept rows appear in order, size() = number of sequences * common length, and every entry read is in bounds.", "quantifier": "every three-dimensional ragged array with non-empty sequences", "why_tests_cant": "Ragged shapes are unbounded in number; the constructor resizes from minima taken over two nested levels.", "anchors": ["source/data/dataset.hpp: Dataset(Cub,...)"]}
{"id": "C04", "title": "Splitting a dataset loses and duplicates nothing", "statement": "split(p) returns two datasets whose rows, put one after the other, are exactly the rows of the original in order, the first holding floor(clamp(p,0,1)*size()/sequence_size())*sequence_size() rows; each non-empty part keeps feature size, sequence size and label columns (an empty part is the empty dataset); no sequence is cut in two.", "quantifier": "every well-formed dataset and every split fraction, including values outside [0,1]", "why_tests_cant": "The claim is about all sizes and all fractions, including the clamped ones; rounding boundaries are easy to miss by sampling.", "anchors": ["source/data/dataset.hpp: split", "source/data/dataset.hpp: subdata"]}
{"id": "C05", "title": "subdata(from,to) is exactly the row interval or an error", "statement": "subdata(from,to) throws exactly when from exceeds min(to, size()); otherwise it returns the rows from..min(to,size())-1 in order, with a trailing incomplete sequence removed; if fewer rows than one sequence are asked for they are kept as one shorter sequence.", "quantifier": "every well-formed dataset, every from and to", "why_tests_cant": "Needs all combinations of clamping, ordering and sequence truncation.", "anchors": ["source/data/dataset.hpp: subdata(SizeType,SizeType)"]}
{"id": "C06", "title": "Shuffling is a permutation of whole rows", "statement": "After shuffle() the multiset of rows is unchanged and every row stays intact (its features and labels travel together), whatever random order is drawn.", "quantifier": "every well-formed dataset and every permutation the random generator can draw", "why_tests_cant": "A test sees one random order per run; the claim ranges over all of them.", "anchors": ["source/data/dataset.hpp: shuffle", "source/dnn/dlmath.hpp: unique_rand_sequence"]}
{"id": "C07", "title": "Input and label views partition every row", "statement": "For every row i < size(): input(i) are the non-label columns in increasing order, label(i) the label columns in increasing order, label indices not smaller than the feature size are ignored, and row i can be rebuilt from the two; inputs() and labels() hold those same views for every row.", "quantifier": "every well-formed dataset, every set of label indices, every row", "why_tests_cant": "All label sets and all rows must be covered; the input() shortcut for unlabelled data is a separate code path.", "anchors": ["source/data/dataset.hpp: input", "source/data/dataset.hpp: inputs", "source/data/dataset.hpp: label", "source/data/dataset.hpp: labels", "source/data/dataset.hpp: label_idx", "source/data/dataset.hpp: _field_from_row_idx"]}
{"id": "C08", "title": "Concatenating two datasets along an axis places every element once", "statement": "concatenate(d1,d2,axis): result shape is the sum along the axis and equal on the others; each element of d1 and d2 appears at the position its own coordinates (shifted along the axis for d2) dictate; an empty operand returns the other; axis > 2 and differing labels (axis 0/1) throw.", "quantifier": "all pairs of well-formed datasets with compatible shapes, all three axes", "why_tests_cant": "Strided copies with three axes: index errors show only for particular shape combinations.", "anchors": ["source/data/dataset.hpp: concatenate", "source/dnn/dlmath.hpp: concatenate"]}
{"id": "C09", "title": "Min-max normalisation maps each selected column into [0,1] and leaves the others alone", "statement": "min_max_normalization(): in exact arithmetic every selected value v of a column with distinct minimum m and maximum M becomes (v-m)/(M-m), lies in [0,1], the order of values inside a column is kept, the extreme values become exactly 0 and 1, and unselected columns are unchanged; the two-bound overload throws exactly when min equals max.", "quantifier": "every well-formed dataset of reals and every set of in-range column indices", "why_tests_cant": "Universally quantified numeric claim over all data.", "anchors": ["source/data/dataset.hpp: min_max_normalization"]}
{"id": "C10", "title": "Changing the sequence size keeps a valid dataset", "statement": "sequence_size(s) with s >= 1 on a dataset with at least one row and one feature: the result holds the first floor(size()/s')*s' rows unchanged (s' = min(s,size())), stays in bounds, and is undefined (division by zero) exactly when s = 0, or there are no rows, or there are no features.", "quantifier": "every well-formed dataset, every new size", "why_tests_cant": "Division by zero and truncation depend on combinations of three sizes.", "anchors": ["source/data/dataset.hpp: sequence_size(SizeType)"]}
{"id": "C11", "title": "Dense forward computes W x + b", "statement": "The dense kernel writes output i = sum_j W[i,j]*x[j] + b[i] for each i, touches nothing else, and never reads or writes outside arrays of the declared sizes.", "quantifier": "all input and output sizes, all numeric values (any number type with + and *)", "why_tests_cant": "Linear-algebra identity over all sizes; out-of-bounds accesses are invisible to value tests.", "anchors": ["source/dnn/dlmath.hpp: dense", "source/dnn/dlmath.hpp: matarr_mul", "source/dnn/dlmath.hpp: arr_sum", "source/dnn/dense.cpp: DenseLayer::forward"]}
{"id": "C12", "title": "Multi-threaded dense forward equals the sequential one under every schedule", "statement": "dense_thread_opt produces, for every interleaving of its tasks' memory operations, the same output vector as the sequential dense kernel.", "quantifier": "all sizes, all values, every interleaving of the tasks", "why_tests_cant": "Tests exercise a handful of the schedules the scheduler happens to pick.", "anchors": ["source/dnn/dlmath.hpp: dense_thread_opt"]}
{"id": "C13", "title": "Multi-threaded dense backward equals the sequential one under every schedule", "statement": "dense_1_thread_opt leaves the same weight, bias and input gradients as dense_1 for every interleaving of its tasks.", "quantifier": "all sizes, all values, every interleaving of the tasks' loads and stores", "why_tests_cant": "The tasks do unsynchronised read-modify-write on a shared array; a lost update needs a specific schedule.", "anchors": ["source/dnn/dlmath.hpp: dense_1_thread_opt", "source/dnn/dlmath.hpp: dense_1"]}
{"id": "C14", "title": "Dense backward returns the exact gradient and accumulates parameter gradients", "statement": "For every differentiable scalar function of the output with output gradient g: the returned input gradient is W^T g (the derivative through W x + b), the weight gradient grows by g_i*x_j and the bias gradient by g_i; repeated calls add up.", "quantifier": "all sizes, inputs, weights, output gradients and previously accumulated gradients (real arithmetic)", "why_tests_cant": "Derivative statement over all real inputs; tests compare a few numbers.", "anchors": ["source/dnn/dlmath.hpp: dense_1", "source/dnn/dense.cpp: DenseLayer::backward"]}
{"id": "C15", "title": "Softmax yields a probability distribution and is shift invariant", "statement": "stable_softmax of a non-empty vector is positive, sums to 1, equals the plain softmax, keeps the order of the scores, and does not change when a constant is added to all inputs.", "quantifier": "all non-empty real vectors of any length, all constants", "why_tests_cant": "Analytic identity over all real vectors.", "anchors": ["source/dnn/dlmath.hpp: softmax", "source/dnn/dlmath.hpp: stable_softmax"]}
{"id": "C16", "title": "argmax returns the first largest element", "statement": "argmax(v) of a non-empty array is in range, its element is >= every other one, and every earlier element is strictly smaller; max(v) is that element.", "quantifier": "all non-empty arrays over any total order", "why_tests_cant": "Tie handling over arbitrary lengths and positions.", "anchors": ["source/dnn/dlmath.hpp: argmax", "source/dnn/dlmath.hpp: max", "source/dnn/dlmath.hpp: max_and_argmax"]}
{"id": "C17", "title": "Sliding-window output shape stays inside the padded source", "statement": "For kernel k, stride s, padding p and source side n with 1 <= k <= n+2p, s >= 1, the number of output positions is floor((n-k+2p)/s)+1, every window lies inside the padded source, one more window would not; when k > n+2p the computed output side wraps modulo 2^64 instead of being rejected.", "quantifier": "all sizes", "why_tests_cant": "Unsigned wrap-around and floor division over all size combinations.", "anchors": ["source/dnn/dlmath.hpp: kernel_slide", "source/dnn/convolutional.cpp: output_side", "source/dnn/pooling.cpp: output_side"]}
{"id": "C18", "title": "Convolution forward is the zero-padded cross-correlation", "statement": "Each output (row, col, filter) is the sum over kernel rows, columns and channels of source element (zero outside the image) times kernel weight, for any stride and padding; all accesses are in bounds.", "quantifier": "all image shapes, kernel shapes (not larger than the padded image), strides, paddings, filters, values", "why_tests_cant": "Index arithmetic in five nested loops over unbounded shapes.", "anchors": ["source/dnn/dlmath.hpp: cross_correlation (4d)", "source/dnn/dlmath.hpp: _conv4d_op", "source/dnn/dlmath.hpp: kernel_slide"]}
{"id": "C19", "title": "Pooling forward computes the window maximum / mean", "statement": "Max pooling outputs the largest, average pooling the arithmetic mean of the kh*kw source elements of the window of the same channel; all accesses are in bounds.", "quantifier": "all image shapes, kernel shapes not larger than the image, strides >= 1, values", "why_tests_cant": "Index arithmetic over unbounded shapes.", "anchors": ["source/dnn/dlmath.hpp: max_pool", "source/dnn/dlmath.hpp: avg_pool", "source/dnn/dlmath.hpp: _max_pool_op", "source/dnn/dlmath.hpp: _avg_pool_op"]}
{"id": "C20", "title": "Append/extract and concatenate/separate are inverse", "statement": "Separating what concatenate produced along any of the three axes gives back both operands; extracting at the offset at which a block was appended returns the block; elements outside the block are untouched.", "quantifier": "all shapes, axes, offsets and contents", "why_tests_cant": "Strided copy round-trip over all shapes.", "anchors": ["source/dnn/dlmath.hpp: concatenate", "source/dnn/dlmath.hpp: separate", "source/dnn/dlmath.hpp: append", "source/dnn/dlmath.hpp: extract"]}
{"id": "C21", "title": "Activation layers backpropagate the exact derivative", "statement": "For ReLU (away from 0), ELU with alpha >= 0, tanh, sigmoid, linear and softmax layers: after training_forward(x), backward(g) returns J(x)^T g, J the Jacobian of forward at x.", "quantifier": "all input vectors, all gradient vectors, any size (real arithmetic)", "why_tests_cant": "Derivative identity over the reals; ELU and tanh compute the derivative from the output, not the input.", "anchors": ["source/dnn/activation.cpp: ReluLayer, EluLayer, TanhLayer, SigmoidLayer, LinearLayer, SoftmaxLayer", "source/dnn/dlmath.hpp: relu_1, elu_1_opt, tanh_1_opt, sigmoid_1_opt, softmax_1_opt"]}
{"id": "C22", "title": "Backpropagation through any stack of layers is the gradient of the whole network", "statement": "For every sequential network of dense and smooth activation layers, running backward layer by layer returns the gradient of (any linear functional of) the network output with respect to the network input and to each layer's parameters.", "quantifier": "all depths, all layer sizes, all parameters, all inputs", "why_tests_cant": "Chain rule over unboundedly many compositions.", "anchors": ["source/dnn/model.cpp: Model::step", "source/dnn/dense.cpp", "source/dnn/activation.cpp"]}
{"id": "C23", "title": "Average pooling distributes the whole gradient over the window", "statement": "AveragePoolingLayer::backward(g) is the gradient of its forward pass: each source cell receives g/(kh*kw) from every window containing it.", "quantifier": "all shapes, strides, gradients", "why_tests_cant": "The missing contribution is one particular cell of each window; needs the derivative as oracle.", "anchors": ["source/dnn/avg_pooling.cpp: AveragePoolingLayer::backward"]}
{"id": "C24", "title": "Max pooling routes the gradient to the cell that produced the maximum", "statement": "MaxPoolingLayer::backward(g) adds each output gradient to the source cell holding the first maximum of its window, and to no other cell.", "quantifier": "all shapes, strides, inputs, gradients", "why_tests_cant": "Depends on where in the window the maximum lies; the failing position is the very first cell.", "anchors": ["source/dnn/max_pooling.cpp: MaxPoolingLayer::backward"]}
{"id": "C25", "title": "Convolutional layer uses its biases and accumulates their gradient", "statement": "ConvolutionalLayer::forward is cross-correlation plus the filter bias; backward's weight, bias and input gradients are the partial derivatives of forward and parameter gradients accumulate over calls.", "quantifier": "all shapes, parameters, inputs, gradients, numbers of accumulated calls", "why_tests_cant": "A bias that is never read does not break shape or weight tests; accumulation needs more than one call.", "anchors": ["source/dnn/convolutional.cpp: ConvolutionalLayer::forward, backward"]}
{"id": "C26", "title": "Recurrent layer backward is the gradient of its forward pass", "statement": "RecurrentLayer::backward returns the derivative of forward (truncated to the time window) with respect to inputs, weights and biases; with one time step the previous hidden state contributes to the next.", "quantifier": "all time steps, sizes, weights, inputs", "why_tests_cant": "Needs the analytic derivative as oracle; errors vanish at zero hidden state, the usual test setup.", "anchors": ["source/dnn/recurrent.cpp: RecurrentLayer::forward, backward"]}
{"id": "C27", "title": "Dropout is the identity at prediction time and consistent in training", "statement": "In training, kept activations are scaled by 1/(1-p), dropped ones are zero and backward uses the same mask and scale; at prediction time the network behaves as if the layer were absent.", "quantifier": "all inputs, all masks the generator can draw, all histories of training and prediction calls", "why_tests_cant": "Depends on the call history (what the buffer last held) and on the random mask.", "anchors": ["source/dnn/dropout.hpp: DropoutLayer::forward", "source/dnn/dropout.cpp: training_forward, backward", "source/dnn/model.cpp: Model::predict"]}
{"id": "C28", "title": "Concatenate layer joins its inputs in order", "statement": "ConcatenateLayer::forward called once per input writes the inputs one after the other along the axis, starting at offset 0, without leaving its buffer.", "quantifier": "all lists of compatible input shapes, all axes", "why_tests_cant": "Requires multi-call sequences; out-of-bounds write is silent.", "anchors": ["source/dnn/concatenate.cpp: ConcatenateLayer"]}
{"id": "C29", "title": "Flat parameter and gradient indexing covers every parameter exactly once", "statement": "For dense, convolutional and recurrent layers param(i) for i < param_count() enumerates every weight and bias exactly once, gradient(i) refers to the gradient of that same parameter, and larger indices throw.", "quantifier": "all layer sizes, all indices", "why_tests_cant": "A bijection over an unbounded index range.", "anchors": ["source/dnn/dense.cpp: param, gradient", "source/dnn/convolutional.cpp: param, gradient", "source/dnn/recurrent.cpp: param, gradient"]}
{"id": "C30", "title": "Gradient descent step moves each parameter by -eta times its gradient and clears it", "statement": "After train(layer) each parameter is p - eta*g of the values before, each gradient is 0, for all layers of the model, in any order; training again without a new backward pass changes nothing.", "quantifier": "all layers, parameter counts, values, learning rates", "why_tests_cant": "Universal over sizes and sequences of calls.", "anchors": ["source/dnn/gd_optimizer.cpp", "source/dnn/optimizer.cpp", "source/dnn/model.cpp: Model::train"]}
{"id": "C31", "title": "Adam treats parameters independently", "statement": "With AdamOptimizer each parameter's update depends only on that parameter's own gradient history, as documented (first and second moment per parameter, step counter per step).", "quantifier": "all layers with several parameters, all gradient histories", "why_tests_cant": "Needs comparing two runs that differ only in another parameter's gradient.", "anchors": ["source/dnn/adam_optimizer.cpp: AdamOptimizer::_train", "source/dnn/adam_optimizer.hpp"]}
{"id": "C32", "title": "Loss statistics are the averages of what was evaluated", "statement": "After any sequence of successful forward calls since reset: avg_loss is the mean of the individual losses, accuracy is correct/total in [0,1], for both loss layers; a call that throws leaves the statistics as they were.", "quantifier": "all histories of forward, set_target and reset calls with inputs and targets of the layer's input size", "why_tests_cant": "History property, including exceptional calls.", "anchors": ["source/dnn/loss.hpp", "source/dnn/loss.cpp", "source/dnn/cce_loss.cpp: forward", "source/dnn/mse_loss.cpp: forward"]}
{"id": "C33", "title": "Loss layers return the gradient of the loss they report", "statement": "MeanSquaredLossLayer and CategoricalCrossEntropyLossLayer: backward equals (1/batch_size) times the gradient of the value added to the cumulative loss, with respect to the input.", "quantifier": "all input sizes, inputs (strictly positive beyond the clamping bound for cross entropy), targets, batch sizes", "why_tests_cant": "Derivative statement for all sizes; a factor equal to the vector length is invisible for length 1.", "anchors": ["source/dnn/mse_loss.cpp", "source/dnn/cce_loss.cpp", "source/dnn/dlmath.hpp: mean_squared_error, mean_squared_error_1, cross_entropy, cross_entropy_1"]}
{"id": "C34", "title": "Execution schedules terminate and cover every reachable connection exactly once", "statement": "For every layer graph (cycles and self loops included) computing the forward, training and backward schedules terminates; the schedule contains exactly the connections whose source is reachable from the starting layers, each once.", "quantifier": "all directed graphs, all starting layer lists without repetition", "why_tests_cant": "Termination and exactly-once over all graphs.", "anchors": ["source/dnn/dlgraph.cpp: training_forward_run, forward_run, backward_run"]}
{"id": "C35", "title": "A layer runs only after everything it depends on", "statement": "In the forward schedule of an acyclic graph no layer's output is consumed before all connections into that layer were executed.", "quantifier": "all acyclic graphs", "why_tests_cant": "Order bugs appear only for skip connections of particular lengths.", "anchors": ["source/dnn/dlgraph.cpp: forward_run"]}
{"id": "C36", "title": "Sequential networks run in construction order and predict the composition", "statement": "For a chain of layers the forward schedule is the chain in order, the backward schedule the reverse, and predict(x) is the composition of the layers' forward functions applied to x.", "quantifier": "all chain lengths, all layer functions, all inputs, any previous calls", "why_tests_cant": "Universal over depth and over call history.", "anchors": ["source/dnn/dlgraph.cpp: forward_run, backward_run", "source/dnn/model.cpp: Model::predict, step"]}
{"id": "C37", "title": "Every model with at least one layer can be trained and used for prediction", "statement": "A model built with add_layer, add_loss and create_loss_edge has the layers without predecessors as inputs and those without successors as outputs, so step and predict run through them.", "quantifier": "all models built by sequences of these calls, single-layer models included", "why_tests_cant": "Input/output layers are recomputed only by some operations; needs all construction histories.", "anchors": ["source/dnn/dlgraph.cpp: add_arc_forward, add_node, add_loss, _compute_input_layers, _compute_output_layers", "source/dnn/model.cpp: create_loss_edge, predict"]}
{"id": "C38", "title": "Copying a model shares parameters but nothing else", "statement": "A copied model reads and trains the same parameters as the original, has the same schedules and layer roles, and its gradients, activations and loss statistics evolve independently.", "quantifier": "all models and all later interleavings of operations on the two copies", "why_tests_cant": "Aliasing over all operation histories.", "anchors": ["source/type.hpp: SharedParams", "source/dnn/dlgraph.cpp: DLGraph(const DLGraph&)", "source/dnn/model.cpp: Model(const Model&)"]}
{"id": "C39", "title": "Each epoch presents every training row exactly once, in order, in batches", "statement": "Sequential training with batch_size >= 1 performs per epoch one step for every row 0..size()-1 in order and one parameter update after every batch_size rows and after the last incomplete batch; with batch_size = 0 it never ends unless the data is empty.", "quantifier": "all data sizes, batch sizes and epoch counts", "why_tests_cant": "Loop bounds over all sizes, and non-termination.", "anchors": ["source/middleware/fnn.hpp: Training<SEQUENTIAL>::run"]}
{"id": "C40", "title": "Parallel training gives the sequential result under every schedule", "statement": "Entry-parallel and batch-parallel training with gradient descent leave the same parameters as sequential training on the same batch in exact arithmetic, for every schedule of the worker tasks.", "quantifier": "all batches, all schedules of tasks against the updating thread", "why_tests_cant": "Workers read parameters that the main thread is already updating; outcome depends on timing.", "anchors": ["source/middleware/fnn.hpp: Training<THREAD_PARALLELISM_ON_DATA_ENTRY>::run, Training<THREAD_PARALLELISM_ON_DATA_BATCH>::run"]}
{"id": "C41", "title": "Dataset prediction is row-wise and leaves the parameters unchanged", "statement": "predict(dataset) returns one row per input row, row i being the model's prediction for row i independent of the other rows (for stateless layers), and changes no parameter; evaluate uses those rows and the label columns.", "quantifier": "all datasets, all stateless sequential models, all call histories", "why_tests_cant": "Row independence is a two-run property over all data.", "anchors": ["source/middleware/fnn.hpp: EdgeFeedforwardNeuralNetwork::predict", "source/middleware/nn.hpp: evaluate_static"]}
{"id": "C42", "title": "The layer-list builder makes a chain with matching sizes", "statement": "Adding descriptors [Input,] L1..Ln yields a chain layer1, activation1, ..., layern, activationn in which each layer's input size equals the previous layer's output size; an Input descriptor anywhere but first throws.", "quantifier": "all descriptor lists of dense, convolution, pooling and dropout layers", "why_tests_cant": "Induction over arbitrary lists.", "anchors": ["source/middleware/fnn.hpp: EdgeFeedforwardNeuralNetwork::add, _add_layer, _add_activation_layer"]}
{"id": "C43", "title": "Saving and loading a layer restores shape and parameters to 6 decimals", "statement": "dump then load restores name, shapes and every parameter up to 0.5e-6, and saving the loaded layer gives the same text again; values that are not multiples of 1e-6 are not restored exactly.", "quantifier": "all layer sizes and all parameter values", "why_tests_cant": "Precision claim over all real values; tests use short decimals.", "anchors": ["source/dnn/dense.cpp: dump, load", "source/parser/json.hpp: JsonLeaf(double)", "source/dnn/layer.cpp: dump, load"]}
{"id": "C44", "title": "JSON text written by the library is read back as the same document", "statement": "Reading the text produced by printing a document gives an equal document, for all documents whose strings contain no double quote and whose lists and dictionaries are non-empty; nesting depth is arbitrary.", "quantifier": "all documents of that class", "why_tests_cant": "Round-trip over unbounded nesting; the reader relies on look-ahead and seeking backwards.", "anchors": ["source/parser/json.hpp: operator<<, operator>> (JsonItem, JsonList, JsonDict, JsonLeaf)"]}
{"id": "C45", "title": "Reading JSON always terminates", "statement": "Reading any text ends with a document or an error.", "quantifier": "all texts, truncated and malformed ones included", "why_tests_cant": "Non-termination cannot be observed by a terminating test suite.", "anchors": ["source/parser/json.hpp: operator>>(istream&, JsonList&), operator>>(istream&, JsonDict&)"]}
{"id": "C46", "title": "Type inference of text fields follows the documented patterns", "statement": "The inferred type is NONE exactly for the empty field, BOOL exactly for true/false, INT exactly for an optionally signed decimal integer without leading zeros, FLOAT exactly for the other decimal numbers with optional fraction and exponent, STRING for everything else; printing an integer or boolean and inferring gives back INT or BOOL.", "quantifier": "all strings", "why_tests_cant": "Language equality over infinitely many strings.", "anchors": ["source/parser/type_checker.hpp: TypeChecker::parse, _integer_regex, _float_regex, _boolean_regex, _string_regex"]}
{"id": "C47", "title": "A CSV row splits into exactly its separator-delimited fields", "statement": "A row converted to a vector has (number of separators + 1) fields which joined by the separator give back the line; field access by index returns the same field.", "quantifier": "all lines and separators, all indices", "why_tests_cant": "Universal over strings; the last empty field is an edge case.", "anchors": ["source/parser/csv.hpp: CSVRow::operator[], operator std::vector<std::string>"]}
{"id": "C48", "title": "CSV row access does not depend on the access history", "statement": "csv[i] returns line (i mod number of rows) of the file whatever rows were requested before.", "quantifier": "all files, all sequences of row requests", "why_tests_cant": "The object caches the last row; correctness ranges over all request histories.", "anchors": ["source/parser/csv.hpp: CSV::operator[]"]}
{"id": "C49", "title": "Iterating a CSV visits every data row once", "statement": "Moving an iterator forwards and backwards in any order and dereferencing gives the requested line; looping from begin() to end() visits each data row exactly once.", "quantifier": "all files, all sequences of iterator operations", "why_tests_cant": "Iterator keeps a file position that must agree with its row counter over all histories.", "anchors": ["source/parser/csv.hpp: CSVIterator::update_row, CSV::begin, CSV::end"]}
{"id": "C50", "title": "One-hot label encoding is faithful", "statement": "data_to_encoding(ONE_HOT): each row is its input columns followed, per label column, by a vector with exactly one 1 at the rank of the label value among the distinct values; row width is encoding_feature_size and the label columns are encoding_labels_idx; distinct labels give distinct codes.", "quantifier": "all data sets, all label column sets", "why_tests_cant": "Column placement is wrong only for certain label positions.", "anchors": ["source/parser/parser.hpp: DatasetParser::data_to_encoding, unique_map, encoding_feature_size, encoding_labels_idx"]}
{"id": "C51", "title": "MNIST reader accepts exactly well-formed headers and returns the stored bytes", "statement": "Construction succeeds exactly when both magic numbers match, counts agree and the side is 28; then image(i) and label(i) return the bytes stored for index i mod size, for every sequence of accesses to files that hold all announced items.", "quantifier": "all files, all sequences of accesses", "why_tests_cant": "Stream state persists across reads: one short read affects all later ones.", "anchors": ["source/parser/mnist.hpp: Mnist, image, label, uint32_endian_order"]}
{"id": "C52", "title": "CIFAR reader returns each stored byte at the right place", "statement": "image(i)/label(i) return the record of index i mod 10000; the row-column-channel order is the exact transposition of the channel-row-column order and loses nothing.", "quantifier": "all files holding 10000 records, all access sequences, all pixels", "why_tests_cant": "Permutation property over all images and access histories.", "anchors": ["source/parser/cifar.hpp: Cifar::image, label, CifarImage::data"]}
{"id": "C53", "title": "Printing an image never leaves the character table", "statement": "Converting any MNIST or CIFAR image to text picks, for each pixel, a character inside the grey-scale table, without an out-of-range numeric conversion.", "quantifier": "all pixel values", "why_tests_cant": "Undefined conversions may go unnoticed; all 2^24 colours count.", "anchors": ["source/parser/mnist.hpp: MnistImage::operator std::string", "source/parser/cifar.hpp: perception_brightness, CifarImage::operator std::string"]}
{"id": "C54", "title": "A training step adds exactly the gradient of the loss of predict", "statement": "Model::step(x, t) on a built feed-forward network succeeds, records the loss of what predict(x) returns, leaves all parameters unchanged, and adds to the gradient buffer of every weight and bias the partial derivative, with respect to that parameter, of the loss of the model's own predict, times one fixed factor.", "quantifier": "all network depths and sizes, activations, inputs and targets where the network is differentiable, both losses", "why_tests_cant": "Numerical gradient checks sample a few points and parameters; this is a derivative statement for every parameter of every network.", "anchors": ["source/dnn/model.cpp: Model::step, predict", "source/dnn/dense.cpp: DenseLayer::training_forward, backward", "source/dnn/activation.cpp", "source/dnn/cce_loss.cpp", "source/dnn/mse_loss.cpp"]}
{"id": "C55", "title": "A batch is one step of gradient descent", "statement": "reset_score, step for each row, then train with gradient descent moves every parameter by -learning rate * factor * (sum over the rows of the partial derivatives at the parameters before the batch), records the summed losses, and leaves no pending gradient.", "quantifier": "all networks, batches of any length, learning rates", "why_tests_cant": "Accumulation and clearing must be right for every parameter and any batch length.", "anchors": ["source/dnn/model.cpp: Model::reset_score, step, train", "source/dnn/gd_optimizer.hpp", "source/dnn/optimizer.hpp: Optimizer::train"]}
{"id": "C56", "title": "Sequential fit is mini-batch gradient descent over the dataset in order", "statement": "Training<SEQUENTIAL>::run ends and its result is reached from the initial network by gradient descent moves, one per batch of consecutive rows, epochs times, with the partial derivatives of the loss of each intermediate network on the rows of that batch.", "quantifier": "all datasets, batch sizes, epochs and networks; with the mean squared error and everywhere differentiable activations without further condition", "why_tests_cant": "End-to-end statement over all epochs and data; tests only watch the loss go down.", "anchors": ["source/middleware/fnn.hpp: Training<SEQUENTIAL>::run"]}
{"id": "C57", "title": "Model initialisation sets every trainable layer as the chosen initialiser says", "statement": "Model::init keeps the graph, all gradients, buffers and all layers without parameters; every dense layer gets weights drawn in order from the chosen density with deviation sqrt(2/inputs) (Kaiming) or sqrt(1/inputs) (Xavier; AUTO picks Kaiming exactly for layers that feed a ReLU), and every bias 0.01; the seed used is the argument, or the device's value for 0.", "quantifier": "all models, graphs, seeds, random engines and densities", "why_tests_cant": "Random values hide which deviation and which draws were used.", "anchors": ["source/dnn/model.cpp: Model::init", "source/dnn/dense.cpp: DenseLayer::init", "source/dnn/convolutional.cpp: init", "source/dnn/recurrent.cpp: init", "source/dnn/dlmath.hpp: initialization_pdf, uniform_pdf, normal_pdf"]}
{"id": "C58", "title": "Layers are initialised independently", "statement": "Two different dense layers of a model do not start with the same weights: each draws fresh numbers from the generator.", "quantifier": "all models, seeds and random engines", "why_tests_cant": "Equal weights look random as well; tests check ranges only.", "anchors": ["source/dnn/model.cpp: Model::init", "source/dnn/layer.hpp: init"]}
{"id": "C59", "title": "rand(from, to) stays between its bounds", "statement": "DLMath::rand(from, to, generator) returns a value between from and to, and reaches both, for real and for integer types.", "quantifier": "all bounds and generator outputs", "why_tests_cant": "The bad value appears for one generator output in 2^64 for small intervals, or with small probability.", "anchors": ["source/dnn/dlmath.hpp: rand, uniform_pdf"]}
{"id": "C60", "title": "fit depends on the architecture, the data and its arguments only", "statement": "For a feed-forward network, fit with a given loss, batch size and seed gives the same parameters and the same predictions whatever weights, outputs and scores the network had before; in particular a second fit gives what it gives on the network as built. For the mean squared error it is initialisation followed by gradient descent with step learning rate * outputs / batch size.", "quantifier": "all network depths and sizes, datasets, seeds, engines, epochs, batch sizes, learning rates", "why_tests_cant": "Leaks of old state into training only show for particular histories.", "anchors": ["source/middleware/fnn.hpp: fit, _fit, Training<SEQUENTIAL>::run", "source/dnn/model.cpp: Model::init, add_loss, create_loss_edge"]}
{"id": "C61", "title": "fit uses the batch size it is given, also the second time", "statement": "A fit with another batch size than the previous fit gives what it gives on the network as built.", "quantifier": "all networks, datasets and pairs of batch sizes", "why_tests_cant": "The effect is a wrong factor in the learning rate, which tests do not see.", "anchors": ["source/middleware/fnn.hpp: fit"]}
{"id": "C62", "title": "A layer graph reports exactly the arcs it was given", "statement": "Whatever sequence of add_node, add_loss, add_edge and add_arc calls, with single layers or vectors: the layers of the graph are those added, each once; successors, predecessors, has_* and the adjacency matrices of the forward, training and backward graphs agree with the arcs the calls name; an arc naming a layer not added before throws; and with edges only the backward arcs are the training arcs reversed.", "quantifier": "all call sequences, all layer identities", "why_tests_cant": "Ten overloads feed three index-based graphs; agreement is over all histories.", "anchors": ["source/dnn/dlgraph.hpp: Graph", "source/dnn/dlgraph.cpp: add_node, add_loss, add_edge, add_arc_forward, add_arc_backward", "source/dnn/dlmath.hpp: index_of"]}
{"id": "C63", "title": "add_loss registers the layer it is given as a loss", "statement": "The loss layers of a graph are exactly the layers passed to add_loss, in order, and the forward layers are all the others.", "quantifier": "all call sequences", "why_tests_cant": "Wrong for layers already in the graph only.", "anchors": ["source/dnn/dlgraph.cpp: add_loss, loss_layers, forward_layers_idx"]}
{"id": "C64", "title": "A model that was assigned to is a usable copy", "statement": "After a = b, a works on layers of its own with the contents of b's layers and runs them as a copy of b would; b and all other models are unchanged; and the layers a returns can be connected like those of any model.", "quantifier": "all programs creating, copying, assigning and building models", "why_tests_cant": "Object identities after three nested copies; the existing test assigns but does not build afterwards.", "anchors": ["source/dnn/model.cpp: operator=, swap, Model(const Model&)", "source/dnn/model.hpp: State", "source/dnn/dlgraph.cpp: DLGraph(const DLGraph&), operator="]}
{"id": "C65", "title": "A network chosen at run time obeys its call protocol", "statement": "A DynamicNeuralNetwork or FeedforwardNeuralNetwork after compile(loss, optimizer, init), whatever was called before, behaves in every later call as the static network of the same layers with that loss, initialisation and optimizer; until compile is called, fit and evaluate throw; and a compile that throws leaves the object as it was.", "quantifier": "all layer lists, all call sequences, every static network", "why_tests_cant": "The states between calls, failed compiles and implicit compiles are reached only by call orders that no test tries.", "anchors": ["source/middleware/nn.hpp: DynamicNeuralNetwork", "source/middleware/fnn.hpp: FeedforwardNeuralNetwork"]}
{"id": "C66", "title": "A layer list trained with fit predicts and evaluates as the mathematics says", "statement": "For a layer list of an input and dense layers with smooth activations, compile with mean squared error and gradient descent followed by fit succeeds whatever was called before; predict then returns for every row the value of the network reached from the initial parameters by gradient descent steps over the batches of every epoch, and evaluate returns the mean loss and the accuracy of these values.", "quantifier": "all layer lists, all datasets of matching sizes, all generators, seeds, rates, batch sizes and epochs, all earlier calls", "why_tests_cant": "It joins building, initialisation, graph order, backpropagation, the optimizer, batching and prediction; tests look at one of them with few sizes.", "anchors": ["source/middleware/fnn.hpp: FeedforwardNeuralNetwork, EdgeFeedforward, fit, predict, evaluate", "source/middleware/nn.hpp: DynamicNeuralNetwork", "source/dnn/model.cpp"]}
{"id": "C67", "title": "The derivative functions are the derivatives of the functions they are named after", "statement": "relu_1, elu_1, tanh_1 and sigmoid_1 are the derivatives of relu, elu, tanh and sigmoid wherever those are differentiable; the _opt versions return the same from the value of the function, for every alpha; the array versions work element by element, also in place; softmax_1 multiplies the gradients with the transposed Jacobian of softmax, whichever array the result is written to.", "quantifier": "all real arguments, all alphas, all array lengths and contents", "why_tests_cant": "Tests compare a few values; negative alpha and overwritten gradients are not tried.", "anchors": ["source/dnn/dlmath.hpp: relu, relu_1, elu, elu_1, elu_1_opt, tanh, tanh_1, tanh_1_opt, sigmoid, sigmoid_1, sigmoid_1_opt, softmax_1, softmax_1_opt"]}
{"id": "C68", "title": "Training with a small enough learning rate does not increase the loss", "statement": "For every network of dense and activation layers with a loss, at parameters where it is differentiable, and every batch of rows there is a positive rate below which one training batch (and one epoch with all rows in one batch) leads to a network whose summed loss on these rows is not larger, and smaller unless all derivatives are zero.", "quantifier": "all networks, all batches, all rates below a bound that depends on both", "why_tests_cant": "A statement about limits; it also excludes every wrong sign, missing term or wrongly indexed update at once.", "anchors": ["source/dnn/model.cpp: step, train", "source/dnn/optimizer.hpp", "source/dnn/gd_optimizer.hpp", "source/middleware/fnn.hpp: fit"]}
{"id": "C69", "title": "Convolutional networks predict the composition of their layers and a step adds the exact gradient", "statement": "A model of convolutional, pooling, dense and activation layers in a row, with a loss, predicts the composition of the layers' mathematical functions (zero-padded cross-correlation, window maxima or means, affine map, activation). One step records the loss of that prediction, leaves all parameters as they are and adds to the gradient of every weight and bias the fixed factor times the partial derivative of the loss with respect to it.", "quantifier": "all layer sequences, all image, kernel, stride, padding and filter sizes, all parameters, inputs and targets at which the network is differentiable", "why_tests_cant": "A gradient is a limit over all perturbations; wrong offsets in one of five nested loops show only for some strides, paddings and channels.", "anchors": ["source/dnn/convolutional.cpp: forward, backward", "source/dnn/max_pooling.cpp", "source/dnn/avg_pooling.cpp", "source/dnn/dlmath.hpp: cross_correlation, kernel_slide, max_pool, avg_pool", "source/dnn/model.cpp: step, predict"]}
{"id": "C70", "title": "Rows and targets of a wrong size are reported", "statement": "predict and step throw when the input does not have the size of the network's input layer, and step throws when the target does not have the size of its output.", "quantifier": "all networks that start with a dense layer, all wrong sizes", "why_tests_cant": "Tests use matching sizes; what happens otherwise depends on which buffer is walked past its end.", "anchors": ["source/dnn/dense.cpp: forward, backward", "source/dnn/cce_loss.cpp: forward", "source/dnn/mse_loss.cpp: forward", "source/dnn/model.cpp: step, predict"]}
{"id": "C71", "title": "Training a convolutional network is gradient descent", "statement": "One training batch of a model of convolutional, max pooling, dense and activation layers with a loss leads from cleared gradients to cleared gradients, records the summed loss of the rows and moves every weight and bias by minus the learning rate times the fixed factor times the summed partial derivatives of the loss over the rows. fit applies this to all batches of all epochs in order. Below some positive rate a batch does not increase the summed loss.", "quantifier": "all layer sequences and sizes, all batches and numbers of epochs, all data at which the network is differentiable, all learning rates", "why_tests_cant": "Composes the exact gradients of every layer with the optimizer for all data; an update that is wrong for one channel or one offset still lowers the loss in the tests.", "anchors": ["source/dnn/model.cpp: step, train, reset_score", "source/dnn/convolutional.cpp: forward, backward", "source/dnn/max_pooling.cpp", "source/dnn/gd_optimizer.hpp", "source/middleware/fnn.hpp: fit"]}
{"id": "C72", "title": "JSON documents are values: no program can see the sharing of their objects", "statement": "Any sequence of assignments, appends and reads on JsonItem variables, with places and sources given by any subscripts (also parts of the target itself, and the target as part of the source), gives the same results and exceptions as the same sequence on independent documents. An assigned or appended document is read back; nothing else that can be read changes; copies are independent for ever.", "quantifier": "all programs, all numbers of variables, all subscript paths, all documents", "why_tests_cant": "Items hold shared pointers; an alias shows only when a copy made by one path is changed by another later.", "anchors": ["source/parser/json.hpp: JsonItem copy constructor, operator=, operator[], at, append, JsonList, JsonDict"]}
{"id": "C73", "title": "A network that branches predicts along every branch, and a step adds the gradient of the summed losses", "statement": "In a model whose layers form a tree from the input, every layer outputs the composition of the layers on the way to it, and predict returns that of the first output layer. With a loss at the end of every branch, one step leaves the parameters as they are, records every loss and adds to the gradient of every weight and bias the partial derivative of the sum of the losses, each with its fixed factor.", "quantifier": "all trees, all numbers of branches, layers and sizes, all inputs and targets at which the network is differentiable", "why_tests_cant": "Tests use one loss and layers in a row; where two gradients meet, the order of the arcs decides which one is lost.", "anchors": ["source/dnn/model.cpp: predict, step, _forward, _backward", "source/dnn/dlgraph.hpp", "source/dnn/dense.cpp: backward", "source/dnn/model.hpp: create_edge, create_loss_edge"]}
{"id": "C74", "title": "A convolutional network does what its layer list says, from compile to trained predictions", "statement": "compile on a list of an input shape and fitting convolution, pooling and dense descriptors with activations creates exactly the layers asked for, in a row, with the shapes the windows give. Then predict returns, row by row, the composition of the layers' functions and evaluate the figures of the chosen loss for those values. fit with gradient descent adds one loss layer, initialises every convolution and dense layer from the seed with the spread chosen by the layer behind it, and moves the weights and the dense layers' biases by gradient descent over the batches of all epochs, as long as the networks met are differentiable at the rows; predict and evaluate then answer with the trained layers.", "quantifier": "all layer lists, image shapes, kernels, strides, paddings, losses, initialisations, seeds, random generators, data sets, batch sizes and numbers of epochs, whatever was called before", "why_tests_cant": "Joins building, initialisation, training and prediction for every architecture; tests run a few fixed networks and check that the loss falls.", "anchors": ["source/middleware/fnn.hpp: add, fit, predict", "source/middleware/nn.hpp: evaluate, DynamicNeuralNetwork", "source/dnn/convolutional.cpp: init", "source/dnn/model.cpp: init"]}
{"id": "C75", "title": "Ranges and order survive rounding", "statement": "Whatever rounding the number type uses, as long as nothing overflows: softmax outputs lie between 0 and 1 and keep the order of the inputs; activation outputs stay in their ranges; min-max normalisation sends every column with two different values into [0,1], its smallest value to 0 and its largest to 1, keeping the order; accuracies lie between 0 and 1 and cumulative losses never decrease; a gradient descent step never moves a parameter along its gradient.", "quantifier": "all monotone idempotent roundings that keep 0, 1 and -1 and do not lose a difference (all IEEE modes, float and double), all inputs, sizes, datasets, loss histories, learning rates", "why_tests_cant": "A rounding error that leaves the range needs a particular pair of numbers; tests compare a few values with a tolerance.", "anchors": ["source/type.hpp", "source/dnn/dlmath.hpp: softmax, sigmoid, tanh, relu, elu", "source/dnn/activation.cpp: forward", "source/data/dataset.hpp: min_max_normalization", "source/dnn/loss.cpp: accuracy, avg_loss", "source/dnn/gd_optimizer.hpp"]}
{"id": "C76", "title": "With growing precision, predictions and training approach the exact results", "statement": "Take any arithmetic in which single operations and exp and tanh have a relative error of at most u. Every output of a dense layer is off by at most (1+u)^(inputs+1) - 1 times the sum of the magnitudes added. As u goes to 0, the predictions of any network converge to the exact ones. So do all weights and biases after any number of epochs of fit, and the predictions of the trained network, provided that the exact training never evaluates a ReLU or a non-smooth ELU at its kink; for the other activations without condition.", "quantifier": "all roundings of relative error u, all feedforward networks, weights, inputs, datasets (with a nonzero target in each row for the cross entropy), batch sizes, numbers of epochs, learning rates, both losses", "why_tests_cant": "A test runs in one precision and compares with a tolerance chosen by hand; error growth over layers, batches and epochs needs an argument about all of them.", "anchors": ["source/type.hpp", "source/dnn/dlmath.hpp: dense, dense_1, activations and their derivatives", "source/dnn/dense.cpp: training_forward, backward", "source/dnn/activation.cpp", "source/dnn/loss.cpp", "source/dnn/model.cpp: predict, step, train", "source/dnn/gd_optimizer.hpp", "source/middleware/fnn.hpp: fit"]}
{"id": "C77", "title": "Threaded kernels and parallel training have no data race", "statement": "In no interleaving of their memory accesses are two threads about to access the same location, one of them to write it: not in dense_thread_opt, not in dense_1_thread_opt, not between the worker tasks and the main thread of entry-parallel and batch-parallel training. Where there is a race, it is known exactly on which sizes it depends.", "quantifier": "all element types, sizes, contents and interleavings of single accesses; all networks of dense and activation layers, datasets, batch sizes, numbers of threads", "why_tests_cant": "A data race shows up only under particular timings, and a test cannot show that there is none; nor can it find the exact sizes from which on there is one.", "anchors": ["source/dnn/dlmath.hpp: dense_thread_opt, dense_1_thread_opt", "source/middleware/fnn.hpp: Training::run (parallel variants)", "source/dnn/model.cpp: step, train", "source/type.hpp: SharedParams"]}
{"id": "C78", "title": "Parallel training equals sequential training if no task reads after the first write of its round", "statement": "Take the accesses of the worker tasks and of the main thread to the shared weights and biases one by one. Whatever the interleaving, if in every round no task reads a parameter after the main thread's first write, entry-parallel training leaves the parameters of sequential training with the same batch size, and batch-parallel training those of sequential training with batch size concurrency times batch_size. Such an execution always exists. Outside of this, there are executions whose parameters no order of whole tasks and trainings explains.", "quantifier": "all chains of dense and activation layers with a loss, over the reals, all datasets, batch sizes, numbers of threads and epochs, learning rates, all interleavings of single accesses", "why_tests_cant": "The number of interleavings is exponential, and the operating system chooses one; tests see a few.", "anchors": ["source/middleware/fnn.hpp: Training::run (parallel variants)", "source/dnn/model.cpp: step, train", "source/dnn/dense.cpp: forward, backward, param", "source/dnn/gd_optimizer.hpp: train", "source/type.hpp: SharedParams"]}
{"id": "C79", "title": "Values put into a JSON document come back unchanged, and what a conversion gives is known for every text", "statement": "Making a leaf of an integer that fits the type, a bool or a string and reading it with as<T>() gives the value back; a vector or map of such values made a list or dictionary gives the same vector or map with as_vec or as_map, also after the document was printed and read as text (strings without double quotes and not empty, container not empty). as<T>() for an integer type throws exactly when the item is not a leaf, is undefined exactly for blank texts, and else gives the integer at the start of the text, 0 without digits, the nearest limit if it does not fit, modulo the size for a minus sign and an unsigned type; whether that was a complete number is not reported. as_vec and as_map convert one element after the other; the first that fails decides.", "quantifier": "all integer types (signed and unsigned, any width), all integers, strings, documents, vectors and maps", "why_tests_cant": "The conversion goes through text: every integer up to the limits of every type and every malformed text would have to be tried.", "anchors": ["source/parser/json.hpp: JsonLeaf constructors, value, as; JsonList, JsonDict constructors and conversions, JsonItem::as, as_vec, as_map, convert_json_object", "source/parser/type_checker.hpp: convert"]}
{"id": "C80", "title": "Training a linear model approaches the least-squares fit", "statement": "A network of one dense layer with linear activation, compiled with the mean squared error and gradient descent and fitted with all rows in one batch at a learning rate of at most batch / (2 * sum over the rows of (1 + |x|^2)): compile and fit succeed, the network then answers with an affine map, and the squared error never gets worse. After N epochs it exceeds that of any affine map by at most (squared distance from the initial parameters to that map) * batch / (2 * rate * N * outputs), and the parameters are no further from a better map than the initial ones. A best affine map exists; with enough epochs the error comes within any given distance of the best, and the answers on the training rows within that distance of the best map's. The bound on the rate is needed: with a larger one the error can grow ninefold with every epoch.", "quantifier": "all data sets, numbers of inputs and outputs, initial parameters, seeds, rates within the bound, numbers of epochs, calls made before", "why_tests_cant": "Convergence is a statement about arbitrarily many epochs and all data sets; a test sees the loss of one run fall.", "anchors": ["source/middleware/fnn.hpp: Training, fit, predict", "source/middleware/nn.hpp: DynamicNeuralNetwork", "source/dnn/model.cpp: Model::step, train", "source/dnn/dense.cpp", "source/dnn/mse_loss.cpp", "source/dnn/gd_optimizer.hpp"]}
{"id": "C81", "title": "Every connection into a layer takes part in what the layer computes", "statement": "In a model where several connections lead to the same layer, each of them contributes to the prediction, and a training step adds to every weight's gradient the derivative of the loss. What is true instead: whatever the connections (cycles included), the prediction is the composition of the layers along one single path from an input layer to the first output layer. The graph alone determines this path: going back from the output, it always uses the connection executed last among those executed before. All other layers and connections have no influence. An output layer no input leads to returns what its buffer held before, whatever the input.", "quantifier": "all graphs of dense and activation layers with matching sizes, all parameters and inputs", "why_tests_cant": "Tests connect layers in a row, where every layer has one connection leading to it.", "anchors": ["source/dnn/model.cpp: Model::predict, Model::step, create_edge", "source/dnn/dlgraph.cpp: forward_run, add_edge with several sources", "source/dnn/dense.cpp: forward"]}
{"id": "C82", "title": "Changing a layer's input shape leaves a usable layer of the new shape", "statement": "Setting the input shape of an existing layer makes it a layer of that shape: afterwards its buffers have the sizes of a layer newly built for the shape, the other parameters are unchanged, the weights of the inputs that remain are kept, copies of the layer remain usable, the call always returns, and a call that throws changes nothing. What is true: for all kinds except concatenate and after any sequence of calls with non-empty shapes, the sizes are those of a newly built layer, forward and backward work, biases and the remaining parameters are unchanged. The weights of a dense layer are kept by position in the list, not by input, which is the same only for one output. For a concatenate layer the call never returns. A copy of a dense layer predicts correctly afterwards, but computes gradients inside its buffers exactly when the layer did not grow. An empty shape throws after the shape has been replaced. A dropout layer computes gradients exactly when its last mask fits the new size.", "quantifier": "all layer kinds, configurations, parameters, sequences of shapes", "why_tests_cant": "Tests set a shape once on a fresh layer and look at the reported sizes; none runs backward on a copy afterwards, and none calls it on a concatenate layer.", "anchors": ["source/dnn/layer.cpp: Layer::input_shape, Layer::_set_input_shape", "source/dnn/feedforward.cpp, dense.cpp, activation.cpp, dropout.cpp, convolutional.cpp, pooling.cpp, loss.cpp, recurrent.cpp, concatenate.cpp: _set_input_shape"]}
{"id": "C83", "title": "A model with recurrent layers processes a sequence", "statement": "A model that contains recurrent layers predicts what the equations of its layers give, each recurrent layer going on from the hidden state it was left in; predictions and training steps leave the same states and no prediction changes a parameter. A model of recurrent layers may be given a long sequence in pieces or in one call after raising the time steps, with the same outputs and final states. After resetting the states a model predicts what any model with the same parameters predicts, whatever was done before. A training step adds to every gradient accumulator the factor of the loss times the partial derivative of the loss from the states held. What is true: all of this with two or more time steps, except that the last sentence holds only for the output weights and output biases of the last recurrent layer and the parameters behind it. With one time step the cutting fails, and predicting the same input twice may give two results.", "quantifier": "all chains of dense, activation and recurrent layers, parameters, states, numbers of time steps, inputs, targets, sequences of calls", "why_tests_cant": "Tests run a recurrent model and print or compare losses; none compares two calls with one call, or a gradient with a difference quotient.", "anchors": ["source/dnn/recurrent.cpp: RecurrentLayer::forward, RecurrentLayer::backward", "source/dnn/recurrent.hpp: RecurrentLayer::time_steps, RecurrentLayer::reset_hidden_state", "source/dnn/model.cpp: Model::predict, Model::step"]}
{"id": "C84", "title": "Parsing a file gives its records as training examples", "statement": "The dataset that Dataset::parse makes from a CSV, MNIST or CIFAR file has one example for each record: the inputs are the values stored in the record and the label is the stored label, or, with the one-hot encoding, the code of that label among all labels of the file. The encoding of the labels does not change the inputs. The result does not depend on the order in which the compiler evaluates the three calls on the parser, nor on what was read from the parser before. What is true: all of this for complete image files, and for CSV files whose last line ends with a line end and whose fields all hold something (with the one-hot encoding: when the labels are the last columns). When an MNIST image file is shorter than announced, the one-hot encoding makes all inputs zero, also those of the stored images, while the default encoding keeps these. An empty CSV field is undefined behaviour. A CSV line without line end is lost.", "quantifier": "all files, label columns, encodings, sequence sizes, orders of evaluation, states of the parser", "why_tests_cant": "Tests parse one small file per format, in one order, and look at sizes and a few values; none compares the encodings or reads a file that is too short.", "anchors": ["source/data/dataset.hpp: Dataset::parse", "source/parser/parser.hpp: DatasetParser::data_to_encoding, encoding_feature_size, encoding_labels_idx", "source/parser/mnist.hpp: Mnist::entry", "source/parser/cifar.hpp: Cifar::entry", "source/parser/csv.hpp: CSV::entry"]}
{"id": "C85", "title": "Connecting several layers in one call", "statement": "A call of DLGraph that connects layers (add_edge, add_arc_forward, add_arc_backward, with one layer or a vector on either side, to layers or losses) returns exactly when it names layers of the graph only. It then adds the arcs it names and no others: to the graphs for running, training and gradients as the call says, with the gradient arcs in the opposite direction; and after connecting layers the inputs and outputs are those of the new graph. The order of the calls, their grouping into vectors and their repetition do not matter. A call that throws leaves the graph as it was. What is true of the last point: this holds when each side is a single layer or the single layer is the unknown one; otherwise the arcs before the first unknown layer stay in the graphs for running and training, without gradient arcs and with the old inputs and outputs, so that a program that goes on predicts through layers it does not train. Calling again with the known layers repairs the graph.", "quantifier": "all graphs reached by any sequence of calls, also calls that throw, all layers and vectors of layers", "why_tests_cant": "Tests connect known layers in one order; the tests of exceptions only look at the exception, not at the graph afterwards.", "anchors": ["source/dnn/dlgraph.cpp: DLGraph::add_edge, add_arc_forward, add_arc_backward", "source/dnn/dlgraph.hpp: DLGraph::Graph::add_arc"]}
{"id": "C86", "title": "CSV files, rows and fields behave as values", "statement": "Copying and assigning CSV objects, rows and fields works as with values: a copy does not depend on the original, and assigning to one variable changes only that variable. What is true: every program that only opens, copies and reads (in any order and with any copies) reads what it would read with values, as long as the originals exist; and so does every program that uses types only while the CSV object they come from exists and assigns only between rows, fields or files with the same column types, or assigns a file to an opened CSV object from which nothing was taken. Otherwise: assigning a row changes the column types of the whole file of the target, and reading other rows of that file can throw; assigning a field changes the type of a column; assigning a CSV object changes the types of rows taken from it; and reading rows of a copy of a CSV object after the original was destroyed is undefined.", "quantifier": "all programs over CSV, row and field variables: any sequence of opening, copying, assigning, destroying, indexing and reading, any files, types and separators", "why_tests_cant": "Tests copy and assign within one file while it is open; none looks at another row or at the file after an assignment, or uses a copy after its original.", "anchors": ["source/parser/csv.hpp: CSVRow(const CSVRow&), CSVRow::operator=, CSVRow::operator[], CSVField::operator=, CSV(std::string, ...), CSV::operator[]"]}
{"id": "C87", "title": "fit with Adam is Adam applied to the gradients of the cost", "statement": "Fitting a feedforward network with the default optimizer performs, for every batch of every epoch, one documented Adam step (default constants) per parameter with the gradient of the batch's cost; it moves no parameter by more than 73 learning rates per batch; a weight whose input is zero in every row is not moved; the result depends only on architecture, data and arguments; and the parallel variants leave the parameters of the sequential one. What is true: each parameter is moved by the documented step for the sequence of all gradients visited so far, of this and all other parameters in the order of the layers, because all parameters share one pair of moments and one time; the gradients are those of the cost; the bound holds; the result does not depend on earlier fits. Otherwise: Adam moves weights whose input is always zero (gradient descent does not), and the parallel variants make one Adam step per task, so that they differ from the sequential one even when all tasks finish before the first step; the order in which they finish does not matter then.", "quantifier": "all feedforward networks, data, batch sizes, numbers of epochs and learning rates; for the parallel variants all orders in which the tasks of a round finish", "why_tests_cant": "Tests check that the error decreases or that fit does not throw; none compares parameters with the documented algorithm or the parallel variants with the sequential one.", "anchors": ["source/middleware/fnn.hpp: Training<SEQUENTIAL>::run, Training<THREAD_PARALLELISM_ON_DATA_ENTRY>::run, Training<THREAD_PARALLELISM_ON_DATA_BATCH>::run, FeedforwardNeuralNetwork::fit", "source/dnn/adam_optimizer.cpp: AdamOptimizer::_train", "source/dnn/model.cpp: Model::train"]}
{"id": "C88", "title": "blanks between JSON tokens do not matter", "statement": "Reading a JSON text gives the same document whatever spaces, tabs and line breaks stand between its tokens. What is true: with blanks around numbers and truth values only, reading gives the same lists, keys and strings, every leaf has the text with its blanks (and then the type of strings), and every number converts to the same integer of any type and the same double. Otherwise: a text that starts with a blank is read as one leaf, whatever follows; a string after a blank keeps its quotes; a list after a blank is a text up to its closing bracket, which closes the outer list; a blank after a string or a list is an element of its own; blanks before a key, before a list in a dictionary or before the closing brace are undefined behaviour; a colon after a blank belongs to the value; true after a blank converts to false.", "quantifier": "all documents of any depth whose strings contain no double quote (C44), all texts with blanks in any places", "why_tests_cant": "The tests read texts that the library printed itself, without blanks, and one file; no test inserts blanks in all places or compares with the text without them.", "anchors": ["source/parser/json.hpp: operator>>(JsonItem), operator>>(JsonList), operator>>(JsonDict), operator>>(JsonLeaf), JsonLeaf::as"]}
{"id": "C89", "title": "softmax, activations, losses and gradients of doubles stay finite", "statement": "With IEEE doubles (rounding, overflow, underflow, infinities, NaN, signed zeros): (1) stable_softmax gives NaN everywhere if an input is NaN or plus infinity or all inputs are minus infinity, and otherwise finite outputs in [0, 1], the largest of which is at least 1/n rounded and belongs to every largest input; (2) sigmoid and tanh give numbers of [0, 1] and [-1, 1] for every input but NaN; (3) backward through relu, tanh and sigmoid does not enlarge a gradient; (4) the cross entropy of a row is finite, between 0 and 37 for each class; (5) its gradient is finite, and below the softmax it is at most 2n. Refuted: the gradient below the softmax is softmax minus target up to rounding: if the output of the expected class underflows to 0, all gradients are 0 and the output can never be learned; and DLMath::softmax (without subtracting the largest input) gives NaN for a finite input.", "quantifier": "all vectors of doubles of any length (n at most 2^53), all targets in [0, 1], every rounding with the listed properties of IEEE 754 and every <cmath> with the listed accuracy", "why_tests_cant": "The tests use a few small numbers; no test covers inputs near overflow or underflow, infinities or NaN, and no sample can cover all doubles.", "anchors": ["source/dnn/dlmath.hpp: stable_softmax_no_check, softmax, sigmoid, tanh, cross_entropy, cross_entropy_1, softmax_1_opt", "source/dnn/activation.cpp: backward", "source/dnn/cce_loss.cpp: forward, backward"]}
{"id": "C90", "title": "a NaN or an overflow stays where it arises", "statement": "A row with a NaN, or a gradient that is not finite, affects only its own prediction and parameter, and a network that predicts NaN is scored as wrong. False. (1) One NaN in one row of a batch makes every parameter of a network that starts with a dense layer NaN after the update, with gradient descent and with Adam; (2) from then on every prediction is NaN for every input, and a NaN parameter stays NaN under any training; (3) all calls of the loss succeed; loss and average loss are NaN until the score is reset; with cross entropy a NaN prediction counts as correct exactly if the target is class 0, so the accuracy may be 1, with the squared error it never does; (4) with Adam one gradient that is not finite makes its parameter and all later ones NaN, in all layers, and all parameters in every later call until reset; (5) a finite gradient whose square overflows (from 2^513 on) ends training: all later parameters are NaN or keep exactly their values, in this and every later call.", "quantifier": "all networks of dense and activation layers of any size, all histories of predict, step and reset calls before and after the row, all learning rates and optimizer states, all numbers of rows", "why_tests_cant": "The tests train on finite data only; the effect spans a batch, an update and all later calls, and shows in the accuracy only as a plausible number.", "anchors": ["source/dnn/model.cpp: step, predict, train", "source/dnn/dense.cpp: forward, backward", "source/dnn/cce_loss.cpp: forward", "source/dnn/mse_loss.cpp: forward", "source/dnn/adam_optimizer.cpp: _train"]}
{"id": "C91", "title": "a saved network predicts nearly the same after loading", "statement": "A network of dense and activation layers with a loss is saved to a file, which is read and loaded into a network of the same architecture. Then (1) for every input each output of the loaded network differs from that of the saved network by at most a drift that is computed layer by layer from the weights and the largest input: a dense layer with n inputs of size at most X takes e to n(A e + (X + e)/10^6) + 1/10^6, A being the largest weight; relu, linear, tanh and sigmoid keep e; softmax takes it to exp(2e) - 1; elu multiplies it by max(1, |alpha|); (2) the predicted class is the same whenever it wins by more than twice the drift; (3) saving the loaded network gives the same file, and loading that once more changes nothing; (4) if all weights and biases have at most six decimals the predictions are equal. The drift has to depend on network and input: for every bound there is a network that predicts a class with a margin above the bound and another class after saving and loading.", "quantifier": "all networks of dense and activation layers of any number and size with either loss, all finite weights, all inputs (over the reals), every correct rounding when the file is read, every previous content of the loading network", "why_tests_cant": "The tests save one small network and compare parameters with a tolerance; they compare no predictions, and how an error of the parameters grows depends on depth, weights and input, for which no sample speaks.", "anchors": ["source/dnn/model.cpp: dump, load, predict", "source/dnn/dense.cpp: dump, load, forward", "source/dnn/mse_loss.cpp: dump, load", "source/dnn/activation.cpp: forward", "source/parser/json.hpp: operator<<, operator>>"]}
{"id": "C92", "title": "predictions in doubles are within a computable bound of the exact ones", "statement": "A network of dense and activation layers holds finite doubles, and no intermediate bound computed from its weights and the largest input exceeds the largest double. Then (1) predicting a finite input in doubles, with every sum, product, quotient, exponential and hyperbolic tangent rounded, yields finite numbers only, and each is within a bound of what the same network predicts in exact arithmetic; the bound is computed layer by layer, from the weights and the largest input: what the layer makes of the error of its inputs (C91) plus its own rounding errors, each 2^-53 of the size of the result plus 2^-1022; (2) if a class is ahead by more than twice the bound, in the exact or in the computed outputs, both predict it; (3) two such networks whose weights and biases differ by at most eps, as a network and its saved and loaded copy do, predict doubles that differ by at most both bounds and the drift of C91. Without the condition on the largest double there are finite weights and inputs for which the prediction is NaN and the exact one is 0.", "quantifier": "all networks of dense and activation layers of any number and size (softmax up to 2^53 classes), all finite doubles as weights, biases and inputs, all arithmetic units that meet IEEE 754 with a cmath of relative error at most del, for every del up to 1/4", "why_tests_cant": "Tests compare some outputs with a tolerance chosen by hand; how rounding errors add up over layers depends on all weights and inputs, and no sample shows a bound for the others.", "anchors": ["source/dnn/model.cpp: predict", "source/dnn/dense.cpp: forward", "source/dnn/activation.cpp: forward", "source/dnn/dlmath.hpp: dense, stable_softmax, relu, elu, tanh, sigmoid, argmax", "source/type.hpp: NumType"]}
{"id": "C93", "title": "a saved convolutional network is restored into a network of any other sizes", "statement": "A network of convolutions, max and average poolings, dense and activation layers ending in a loss is saved with Model::dump to a file, and the file is loaded with Model::load into a network that has the same classes of layers in the same order (and the same alpha in ELU layers), but may have other sizes, kernels, strides, paddings, numbers of filters and parameters. Then (1) the second network has the sizes of the first, all its buffers and gradients fit, and it shows what the file says; (2) for every input of the first network's size both predict, and each output differs by at most a drift computed layer by layer from the saved weights and the largest input for a change of 10^-6 in each number: a convolution sums height x width x channels products, a pooling keeps the drift; (3) if a class is ahead by more than twice the drift, both predict it; (4) if all numbers have at most six decimals the outputs are equal; (5) saving the loaded network gives the same file, and whichever network the file is loaded into, the predictions are the same.", "quantifier": "all convolutional networks in a row of layers, of any number and size; all targets of the same classes; all inputs; all sets of doubles with reading to nearest", "why_tests_cant": "Tests load a file into a network built the same way and compare a few fields; loading into other sizes resizes every buffer of every layer, and what the lost digits do to predictions depends on all weights and inputs.", "anchors": ["source/dnn/model.cpp: dump, load, predict", "source/dnn/convolutional.cpp: dump, load, forward", "source/dnn/pooling.cpp: dump, load", "source/dnn/max_pooling.cpp: forward", "source/dnn/avg_pooling.cpp: forward", "source/dnn/dense.cpp: dump, load", "source/dnn/feedforward.cpp: load", "source/dnn/loss.cpp: load", "source/dnn/mse_loss.cpp: load"]}
{"id": "C94", "title": "convolutional networks computed with doubles predict within a computed bound of the exact values", "statement": "With IEEE doubles (any correctly rounded format with 53 bits, and exp and tanh of relative error at most del), a network of convolutions with any kernels, strides and paddings, max and average poolings, dense and activation layers, with finite weights and a finite input, predicts finite outputs that differ from the exact predictions of the same network by at most a bound computed layer by layer from the weights and the largest input, provided a condition computed in the same way (no overflow) holds. A convolution contributes the rounding of height x width x channels products and sums, an average pooling that of the window's sum and of the division, a max pooling nothing. If a class is ahead by more than twice the bound, in the exact or in the computed outputs, both predict it. Two such networks whose weights differ by at most eps predict within both bounds plus the drift of C93. Without the condition it is false: the average pooling of two equal finite doubles is computed as an infinity although their mean is finite.", "quantifier": "all convolutional networks in a row of layers, of any number and size; all finite weights and inputs; all ieee formats; all accuracies del <= 1/4", "why_tests_cant": "Tests compare a few outputs with a tolerance; whether a tolerance is justified depends on the weights, sizes and inputs, and the exact prediction is not available to a test.", "anchors": ["source/dnn/dlmath.hpp: cross_correlation, max_pool, avg_pool", "source/dnn/convolutional.cpp: forward", "source/dnn/max_pooling.cpp: forward", "source/dnn/avg_pooling.cpp: forward", "source/dnn/model.cpp: predict"]}
{"id": "C95", "title": "every layer and model has a name of its own unless it was given or loaded", "statement": "A layer or model constructed without a name is called the prefix of its class followed by the number of objects constructed without a name before it in the process. After any program of constructions, copies and loads, the name of each object is the name last loaded into it or into any copy of the same original, or else the name given at construction, or else that automatic name; the program has undefined behaviour exactly if it refers to an object that does not exist. While nothing is loaded, no given name or class prefix ends in a digit and at most 2^64 names are made, two objects have one name exactly if they are copies of one original or were given that name. In a feedforward network of the middleware, the layers of descriptors without names all have different names, but a descriptor's name goes to both the layer and its activation layer. Names are not unique in general: a loaded name or a given name may be the next automatic one, a prefix ending in a digit runs into the number, and threads that construct at once may take one number because the counter is not atomic; if no thread reads the counter between another's read and write, the numbers are those of the order of the calls.", "quantifier": "all programs of constructions, copies and loads of any classes and names; all descriptor lists; all numbers of threads and schedules", "why_tests_cant": "Tests check the prefix of a few names; uniqueness is about all programs, including 64-bit wrap-around, prefixes of user-defined classes and interleavings of threads.", "anchors": ["source/dnn/dlmath.hpp: unique", "source/dnn/layer.cpp: Layer, load", "source/dnn/model.cpp: Model, load, name", "source/middleware/fnn.hpp: add"]}
{"id": "C96", "title": "fit of a convolutional network with Adam is Adam applied to the gradients of the cost", "statement": "Training a network of convolutions, poolings, dense and activation layers with Adam, the default optimizer: a batch moves every parameter by the documented Adam step for the gradients seen so far. The gradients enter one after the other, layer by layer, weights before biases, into moments shared by all parameters; those of weights and of dense biases are the factor of the loss times the derivatives of the summed cost of the predictions. fit does this over the batches of consecutive rows in order, epoch after epoch, with one optimizer, and moves no parameter, not even a convolution's unused bias, by more than 73 eta per batch. It is false for the biases of convolutions: no prediction depends on them, so their derivatives are 0, but the step stores other numbers for them, which move the biases and stay in the moments by which all other parameters move.", "quantifier": "all convolutional networks in a row of layers, datasets, learning rates, batch sizes and numbers of epochs at which the cost is differentiable (always with the mean squared error and smooth layers)", "why_tests_cant": "Tests check that the loss falls on an example. What Adam should do depends on all gradients seen before, and a wrong derivative or order of a few of them still lets the loss fall.", "anchors": ["source/dnn/model.cpp: train", "source/dnn/adam_optimizer.cpp: train", "source/dnn/convolutional.cpp: backward, gradient", "source/middleware/fnn.hpp: fit"]}
{"id": "C97", "title": "loading either takes over a saved network or leaves the network as it was", "statement": "A network that loads a file saved by a network with layers of the same classes in the same order takes it over (numbers to six decimals); loading a file saved by any other network throws an exception and leaves the network as it was. It is false: loading takes over the name, then the layers of the file one by one up to the first that is missing in the file or of another class, and throws there. The layers before it are those of the file, the layers from it on are as they were, and the sizes of the two parts need not fit. A file with more layers than the network is accepted when it begins with layers of the classes of the network; its other layers are ignored. For any document at all: classes and number of layers stay, the layers before the one that fails are loaded completely and the layers after it are as they were.", "quantifier": "all pairs of networks, all documents, also those no network wrote", "why_tests_cant": "Tests load files written by the same network. What an exception leaves behind is looked at by none, and the ways in which two networks can differ are endless.", "anchors": ["source/dnn/model.cpp: Model::load", "source/dnn/layer.cpp: Layer::load", "source/dnn/dense.cpp: load", "source/dnn/convolutional.cpp: load", "source/dnn/recurrent.cpp: load"]}
{"id": "C98", "title": "a model with a concatenate layer predicts from the joined outputs of the layers connected to it", "statement": "In a model, a concatenate layer with several connections into it hands the joined outputs of the connected layers on, in every prediction and every step, and hands the parts of its gradient back. It is false in every case: with two connections into it no prediction and no step ever ends normally, whatever the other layers are; with one connection, of any program of predictions and steps at most the first call does; and the gradient it hands back is always zero, so the layers in front of it do not learn through it.", "quantifier": "all models, all graphs built by the model's methods, all layers of other classes, all shapes and axes, all programs of calls", "why_tests_cant": "The tests call the layer alone, once. That it fails in every model needs all graphs and all other layers.", "anchors": ["source/dnn/concatenate.cpp: forward, backward", "source/dnn/model.cpp: predict, step", "source/dnn/dlgraph.cpp: forward_run"]}
{"id": "C99", "title": "a recurrent network loaded from its file predicts like the saved one once the hidden states are reset, and only then", "statement": "When a network with recurrent layers is saved and the file is loaded into any network of the same classes of layers, whatever its sizes, time steps and history, the target takes the sizes of the saved one. After reset_hidden_state() on both, the outputs of any number of predictions one after the other differ by at most a bound that is computed from the parameters and the inputs, and by nothing when the parameters have six decimals; saving again gives the same file. The hidden states are not part of this: the target goes on from the first entries of its own old states (zeros behind them), so that without a reset the predictions may differ though no number was rounded, after loading into a used target and after saving a used network.", "quantifier": "all chains of recurrent (two or more steps), dense and activation layers with losses, all parameters, all targets and their states, all sequences of inputs", "why_tests_cant": "A test loads into a new layer and compares one prediction. The bound over all calls and the old states of the target need all parameters, sizes and histories.", "anchors": ["source/dnn/recurrent.cpp: dump, load, forward", "source/dnn/model.cpp: dump, load, predict", "source/dnn/recurrent.hpp: reset_hidden_state"]}
{"id": "C100", "title": "recurrent networks computed with doubles stay within a bound of the exact predictions in every call, unless a state becomes NaN, which only a reset removes", "statement": "When a network with recurrent layers is called with finite inputs, one after the other, and no sum can overflow (checked by a bound from the parameters and the size of the inputs), all predictions are finite and the one of each call differs from the exact prediction by at most a bound for this call, although every hidden state is computed from rounded ones. Without that condition finite parameters and inputs may give NaN where the exact prediction is zero. A NaN in the hidden state of one layer never leaves: every later prediction is NaN throughout, whatever the inputs; after reset_hidden_state() the bounds hold again.", "quantifier": "all IEEE doubles with accurate exp and tanh, all chains of recurrent (two or more steps), dense and activation layers, all finite parameters, all sequences of inputs", "why_tests_cant": "A test predicts a few times and compares with a tolerance. The rounding error of the state is fed back in every step of every call, and NaN for all later inputs is a statement about unboundedly many calls.", "anchors": ["source/dnn/recurrent.cpp: forward", "source/dnn/model.cpp: predict", "source/dnn/recurrent.hpp: reset_hidden_state", "source/dnn/dlmath.hpp: matarr_mul, tanh"]}
{"id": "C101", "title": "the score of a model is the average over its losses and over the steps since the last reset", "statement": "After any returning calls of predict, step, train and reset_score, each loss of a model has evaluated one prediction per step since the last reset and per connection into it that the step runs, and predictions count only if they run a connection into it. If every loss has one such connection, and there was a step, avg_loss() and accuracy() of the model are averages over all pairs of a loss and a step since the reset, and the accuracy lies between 0 and 1. For layers in a row with one loss they are the mean of the loss and the share of hits of what the model would have predicted at the time of each of these steps. Right after a reset, and without losses, both are NaN in doubles.", "quantifier": "all models with any graph and any sizes, all sequences of calls; averages over the reals, NaN for all doubles with a correct zero", "why_tests_cant": "A test reads the score after a few steps of one small network. That no sequence of predictions, trainings and resets disturbs the count, in any graph, needs an invariant.", "anchors": ["source/dnn/model.cpp: accuracy, avg_loss, reset_score, step, predict, train", "source/dnn/loss.cpp: accuracy, avg_loss, reset_score"]}
