(** Saving layers and models as JSON and loading them
    (/repo/source/dnn/layer.cpp, dense.cpp, convolutional.cpp, pooling.cpp, dropout.cpp,
    mse_loss.cpp, recurrent.cpp, activation.cpp, concatenate.cpp, model.cpp;
    /repo/source/parser/json.hpp, type_checker.hpp). *)
From Coq Require Import Ascii String Reals.
From Verif Require Import Base TypeModel StreamModel JsonModel.
Local Open Scope list_scope.
Local Open Scope nat_scope.
Local Notation length := List.length.

(** *** Numbers. A double is a sign bit and a magnitude, or an infinity, or not a number.
    Magnitudes are real numbers; which reals are doubles is left open: reading a decimal takes
    the rounding [fl] as an argument. *)
Inductive dbl := DFin (neg : bool) (m : R) | DInf (neg : bool) | DNan (neg : bool).

(** Round to nearest integer, ties to even (the default rounding mode, as used by printf) *)
Definition rne (y : R) : Z :=
  let f := (up y - 1)%Z in
  match total_order_T (y - IZR f)%R (/ 2)%R with
  | inleft (left _) => f
  | inleft (right _) => if Z.even f then f else (f + 1)%Z
  | inright _ => (f + 1)%Z
  end.
(** The last [k] decimal digits *)
Fixpoint pad_rev (k : nat) (n : Z) : text :=
  match k with O => [] | S k => digit (Z.to_nat (n mod 10)%Z) :: pad_rev k (n / 10)%Z end.
(** A count of millionths with six decimals *)
Definition micros (n : Z) : text := print_nonneg (n / 10 ^ 6)%Z ++ "."%char :: rev (pad_rev 6 (n mod 10 ^ 6)%Z).
(** std::to_string(double): printf("%f") *)
Definition print_double (x : dbl) : text :=
  let sgn (b : bool) := if b then txt "-" else [] in
  match x with
  | DFin neg m => sgn neg ++ micros (rne (m * 10 ^ 6)%R)
  | DInf neg => sgn neg ++ txt "inf"
  | DNan neg => sgn neg ++ txt "nan"
  end.

(** *** Reading numbers: convert(s, ref), type_checker.hpp 70-76: a stringstream and >>. The result
    flag is not used. White space is skipped; if nothing is left [ref] keeps its value, which
    JsonLeaf::as (json.hpp 591-596) leaves uninitialised. A text that does not start with a number
    gives 0. Characters after the number are ignored. *)
Fixpoint skip_space (s : text) : text :=
  match s with c :: w => if range "009" "013" c || Ascii.eqb c " " then skip_space w else s | [] => [] end.
Definition take_sign (s : text) : bool * text :=
  match s with c :: w => if Ascii.eqb c "-" then (true, w) else if Ascii.eqb c "+" then (false, w) else (false, s) | [] => (false, []) end.
Fixpoint take_digits (s : text) : text * text :=
  match s with
  | c :: w => if range "0" "9" c then let '(a, b) := take_digits w in (c :: a, b) else ([], s)
  | [] => ([], [])
  end.
Definition dec_value (ds : text) : Z := fold_left (fun v c => v * 10 + (Z.of_nat (nat_of_ascii c) - 48))%Z ds 0%Z.
(** std::istream >> unsigned long: a minus sign negates modulo 2^64; too large gives the maximum *)
Definition read_size (s : text) : res nat :=
  match skip_space s with
  | [] => UB
  | s => let '(neg, s) := take_sign s in
         let n := dec_value (fst (take_digits s)) in
         Ok (Z.to_nat (if 2 ^ 64 <=? n then 2 ^ 64 - 1 else if neg then (- n) mod 2 ^ 64 else n)%Z)
  end.
(** std::istream >> int: too large gives the largest or smallest value *)
Definition read_int (s : text) : res Z :=
  match skip_space s with
  | [] => UB
  | s => let '(neg, s) := take_sign s in
         let n := dec_value (fst (take_digits s)) in
         let v := if neg then (- n)%Z else n in
         Ok (Z.max (- 2 ^ 31) (Z.min v (2 ^ 31 - 1)))
  end.
(** std::istream >> double: sign, digits, point, digits, exponent; "inf" and "nan" are not
    numbers here. Texts beyond the largest double are not modelled. *)
Definition read_double (fl : R -> R) (s : text) : res dbl :=
  match skip_space s with
  | [] => UB
  | s =>
      let '(neg, s) := take_sign s in
      let '(ip, s) := take_digits s in
      let '(fp, s) := match s with c :: w => if Ascii.eqb c "." then take_digits w else ([], s) | [] => ([], []) end in
      let zero := DFin false 0%R in
      match ip ++ fp with
      | [] => Ok zero
      | ds =>
          let v e := DFin neg (fl (IZR (dec_value ds) * powerRZ 10 (e - Z.of_nat (length fp))%Z)%R) in
          match s with
          | c :: w =>
              if Ascii.eqb c "e" || Ascii.eqb c "E" then
                let '(eneg, w) := take_sign w in
                match fst (take_digits w) with
                | [] => Ok zero
                | es => Ok (v (if eneg then (- dec_value es)%Z else dec_value es))
                end
              else Ok (v 0%Z)
          | [] => Ok (v 0%Z)
          end
      end
  end.

(** *** JSON items of numbers and conversions *)
(** JsonLeaf(double), json.hpp 540-542 *)
Definition leaf_double (x : dbl) : json := JLeaf (print_double x) TFloat.
Definition leaf_size (n : nat) : json := leaf_int (Z.of_nat n).
(** Json(std::vector<size_t>): JsonList 714-717, _convert_vec 1787-1796 *)
Definition list_size (l : list nat) : json := JList (map leaf_size l).
(** convert_json_object, 1811-1835 *)
Definition as_leaf {A} (conv : text -> res A) (d : json) : res A :=
  match d with JLeaf v _ => conv v | _ => Throw end.
Definition as_text (d : json) : res text := as_leaf (fun v => Ok v) d.
Definition as_size (d : json) : res nat := as_leaf read_size d.
Definition as_int (d : json) : res Z := as_leaf read_int d.
Definition as_double (fl : R -> R) (d : json) : res dbl := as_leaf (read_double fl) d.
(** as_vec<size_t>, 1424-1429, 872-881 *)
Definition as_sizes (d : json) : res (list nat) := match d with JList l => mapM as_size l | _ => Throw end.
(** JsonItem::operator std::string, 1755-1786 *)
Definition item_text (d : json) : text := match d with JNull => [] | JLeaf v _ => v | d => print d end.
(** Non-const operator\[\](idx) throws as at(idx) does; 1232-1258, 761-769 *)
Notation sub_idx := at_idx.

(** *** Layers *)
Definition shape3 := (nat * nat * nat)%type.
Definition size3 (s : shape3) : nat := let '(h, w, c) := s in h * w * c.
(** Fields of Layer, layer.hpp 95-130: name and shapes. Shapes are not empty in a layer, see
    [size0]. *)
Record fields := mkF { f_name : text; f_in : list shape3; f_out : list shape3 }.
(** LayerShape::shape(0), size(0), channels(0): std::vector::at; layer.cpp 57-80 *)
Definition shape0 (l : list shape3) : res shape3 := match l with s :: _ => Ok s | [] => Throw end.
Definition size0 (l : list shape3) : res nat := s <- shape0 l ;; Ok (size3 s).
Definition channels0 (l : list shape3) : res nat := '(_, _, c) <- shape0 l ;; Ok c.

(** A layer: its fields and what its class saves. Gradients, activations and other buffers,
    which are resized by load but not saved, are left out.
    [DPlain t]: classes that save the fields only: Relu, Softmax, Tanh, Sigmoid, Linear,
    Concatenate (its axis is not saved and has no say here), CCELoss; [t] is the type name.
    [DElu]: activation.cpp 96-101, saves the fields only, not alpha.
    [DPool t]: AveragePool, MaxPool.
    [DRec]: activation of the hidden state, hidden size, time steps, the three weight matrices,
    the two bias vectors. *)
Inductive dlayer :=
| DPlain (t : text) (f : fields)
| DElu (f : fields) (alpha : dbl)
| DDense (f : fields) (w b : list dbl)
| DConv (f : fields) (kernel stride padding : nat * nat) (n_filters : nat) (w b : list dbl)
| DPool (t : text) (f : fields) (kernel stride : nat * nat)
| DDrop (f : fields) (p : dbl)
| DMse (f : fields) (tol : dbl)
| DRec (f : fields) (act : Z) (hidden steps : nat) (wih whh who bh bo : list dbl).
Definition fields_of (l : dlayer) : fields :=
  match l with
  | DPlain _ f | DElu f _ | DDense f _ _ | DConv f _ _ _ _ _ _ | DPool _ f _ _ | DDrop f _ | DMse f _ | DRec f _ _ _ _ _ _ _ _ => f
  end.
(** type(): the TYPE constant of the class *)
Definition type_of (l : dlayer) : text :=
  match l with
  | DPlain t _ => t | DElu _ _ => txt "Elu" | DDense _ _ _ => txt "Dense" | DConv _ _ _ _ _ _ _ => txt "Conv" | DPool t _ _ _ => t
  | DDrop _ _ => txt "Dropout" | DMse _ _ => txt "MSELoss" | DRec _ _ _ _ _ _ _ _ _ => txt "Recurrent"
  end.

(** *** Saving *)
(** A Json filled by append in a loop *)
Definition appends (n : nat) (f : nat -> res json) : res json := for_ n (fun i acc => x <- f i ;; append acc x) JNull.
Definition dump_shapes (l : list shape3) : res json :=
  foldM (fun acc s => let '(h, w, c) := s in append acc (list_size [h; w; c])) l JNull.
(** Layer::dump, layer.cpp 183-209 *)
Definition dump_fields (t : text) (f : fields) : res json :=
  out <- set_key JNull (txt "type") (leaf_text t) ;;
  out <- set_key out (txt "name") (leaf_text (f_name f)) ;;
  input_shape <- dump_shapes (f_in f) ;;
  out <- set_key out (txt "input_shape") input_shape ;;
  output_shape <- dump_shapes (f_out f) ;;
  set_key out (txt "output_shape") output_shape.
(** Rows of a matrix, row by row at offset i * cols: dense.cpp 170-182, recurrent.cpp 485-519 *)
Definition dump_matrix (rows cols : nat) (w : list dbl) : res json :=
  appends rows (fun i => appends cols (fun j => x <- rd w (i * cols + j) ;; Ok (leaf_double x))).
Definition dump_vector (n : nat) (b : list dbl) : res json := appends n (fun i => x <- rd b i ;; Ok (leaf_double x)).
(** DenseLayer::dump, dense.cpp 166-192 *)
Definition dump_dense (f : fields) (w b : list dbl) : res json :=
  out <- dump_fields (txt "Dense") f ;;
  n_out <- size0 (f_out f) ;; n_in <- size0 (f_in f) ;;
  weights <- dump_matrix n_out n_in w ;;
  biases <- dump_vector n_out b ;;
  out <- set_key out (txt "weights") weights ;;
  set_key out (txt "biases") biases.
(** ConvolutionalLayer::dump, convolutional.cpp 261-316 *)
Definition dump_conv (f : fields) (kernel stride padding : nat * nat) (nf : nat) (w b : list dbl) : res json :=
  out <- dump_fields (txt "Conv") f ;;
  ch <- channels0 (f_in f) ;;
  weights <- appends (fst kernel) (fun r => appends (snd kernel) (fun c => appends ch (fun k => appends nf (fun i =>
    x <- rd w (r * snd kernel * ch * nf + c * ch * nf + k * nf + i) ;; Ok (leaf_double x))))) ;;
  biases <- dump_vector nf b ;;
  others <- set_key JNull (txt "kernel_size") (list_size [fst kernel; snd kernel]) ;;
  others <- set_key others (txt "n_filters") (leaf_size nf) ;;
  others <- set_key others (txt "stride") (list_size [fst stride; snd stride]) ;;
  others <- set_key others (txt "padding") (list_size [fst padding; snd padding]) ;;
  out <- set_key out (txt "weights") weights ;;
  out <- set_key out (txt "biases") biases ;;
  set_key out (txt "others") others.
(** PoolingLayer::dump, pooling.cpp 70-84 *)
Definition dump_pool (t : text) (f : fields) (kernel stride : nat * nat) : res json :=
  out <- dump_fields t f ;;
  others <- set_key JNull (txt "kernel_size") (list_size [fst kernel; snd kernel]) ;;
  others <- set_key others (txt "stride") (list_size [fst stride; snd stride]) ;;
  set_key out (txt "others") others.
(** DropoutLayer::dump, dropout.cpp 93-101; MeanSquaredLossLayer::dump, mse_loss.cpp 79-87 *)
Definition dump_one (t : text) (f : fields) (key : text) (x : dbl) : res json :=
  out <- dump_fields t f ;;
  others <- set_key JNull key (leaf_double x) ;;
  set_key out (txt "others") others.
(** RecurrentLayer::dump, recurrent.cpp 481-550 *)
Definition dump_rec (f : fields) (act : Z) (hidden steps : nat) (wih whh who bh bo : list dbl) : res json :=
  out <- dump_fields (txt "Recurrent") f ;;
  n_in <- size0 (f_in f) ;; n_out <- size0 (f_out f) ;;
  ih <- dump_matrix hidden n_in wih ;;
  hh <- dump_matrix hidden hidden whh ;;
  ho <- dump_matrix n_out hidden who ;;
  weights <- append JNull ih ;; weights <- append weights hh ;; weights <- append weights ho ;;
  jbh <- dump_vector hidden bh ;;
  jbo <- dump_vector n_out bo ;;
  biases <- append JNull jbh ;; biases <- append biases jbo ;;
  others <- set_key JNull (txt "hidden_activation") (leaf_int act) ;;
  others <- set_key others (txt "hidden_size") (leaf_size hidden) ;;
  others <- set_key others (txt "time_steps") (leaf_size steps) ;;
  out <- set_key out (txt "weights") weights ;;
  out <- set_key out (txt "biases") biases ;;
  set_key out (txt "others") others.
(** dump of the class of the layer; FeedforwardLayer::dump (feedforward.cpp 42-45), LossLayer::dump
    (loss.cpp 81-84) and ConcatenateLayer::dump (concatenate.cpp 144-147) are Layer::dump *)
Definition dump (l : dlayer) : res json :=
  match l with
  | DPlain t f => dump_fields t f
  | DElu f _ => dump_fields (txt "Elu") f
  | DDense f w b => dump_dense f w b
  | DConv f k s p n w b => dump_conv f k s p n w b
  | DPool t f k s => dump_pool t f k s
  | DDrop f p => dump_one (txt "Dropout") f (txt "drop_probability") p
  | DMse f tol => dump_one (txt "MSELoss") f (txt "loss_tolerance") tol
  | DRec f a h s w1 w2 w3 b1 b2 => dump_rec f a h s w1 w2 w3 b1 b2
  end.

(** *** Loading. An exception leaves the layer partly loaded; for that state see LoadModel.v. *)
Definition load_shapes (d : json) : res (list shape3) :=
  for_ (jsize d) (fun i acc =>
    s <- sub_idx d i ;;
    h <- (x <- sub_idx s 0 ;; as_size x) ;; w <- (x <- sub_idx s 1 ;; as_size x) ;; c <- (x <- sub_idx s 2 ;; as_size x) ;;
    Ok (acc ++ [(h, w, c)])) [].
(** Layer::load, layer.cpp 211-247 *)
Definition load_fields (t : text) (d : json) : res fields :=
  _ <- guard (match d with JNull => false | _ => true end) ;;
  jt <- at_key d (txt "type") ;; ty <- as_text jt ;; _ <- guard (text_eqb ty t) ;;
  jn <- at_key d (txt "name") ;;
  ji <- at_key d (txt "input_shape") ;; ins <- load_shapes ji ;; _ <- size0 ins ;;
  jo <- at_key d (txt "output_shape") ;; outs <- load_shapes jo ;; _ <- size0 outs ;;
  Ok (mkF (item_text jn) ins outs).
Section Load.
  Variable fl : R -> R.
  (** x = in.at("weights").at(i).at(j): one lookup per element *)
  Definition load_matrix (src : res json) (rows cols : nat) (w : list dbl) : res (list dbl) :=
    for_ rows (fun i w => for_ cols (fun j w =>
      d <- src ;; r <- at_idx d i ;; e <- at_idx r j ;; x <- as_double fl e ;; wr w (i * cols + j) x) w)
      (resize (DFin false 0%R) (rows * cols) w).
  Definition load_vector (src : res json) (n : nat) (b : list dbl) : res (list dbl) :=
    for_ n (fun i b => d <- src ;; e <- at_idx d i ;; x <- as_double fl e ;; wr b i x) (resize (DFin false 0%R) n b).
  (** DenseLayer::load, dense.cpp 194-216 *)
  Definition load_dense (d : json) (w b : list dbl) : res dlayer :=
    f <- load_fields (txt "Dense") d ;;
    n_out <- size0 (f_out f) ;; n_in <- size0 (f_in f) ;;
    w <- load_matrix (at_key d (txt "weights")) n_out n_in w ;;
    b <- load_vector (at_key d (txt "biases")) n_out b ;;
    Ok (DDense f w b).
  Definition other (d : json) (k : text) : res json := o <- at_key d (txt "others") ;; at_key o k.
  Definition pair_of (d : json) (k : text) : res (nat * nat) :=
    o <- other d k ;; v <- as_sizes o ;;
    match v with a :: b :: _ => Ok (a, b) | _ => Throw end.
  (** ConvolutionalLayer::load, convolutional.cpp 318-370 *)
  Definition load_conv (d : json) (w b : list dbl) : res dlayer :=
    f <- load_fields (txt "Conv") d ;;
    kernel <- pair_of d (txt "kernel_size") ;;
    nf <- (o <- other d (txt "n_filters") ;; as_size o) ;;
    stride <- pair_of d (txt "stride") ;;
    padding <- pair_of d (txt "padding") ;;
    ch <- channels0 (f_in f) ;;
    w <- for_ (fst kernel) (fun r w => for_ (snd kernel) (fun c w => for_ ch (fun k w => for_ nf (fun i w =>
        d <- at_key d (txt "weights") ;; d <- at_idx d r ;; d <- at_idx d c ;; d <- at_idx d k ;; e <- at_idx d i ;;
        x <- as_double fl e ;; wr w (r * snd kernel * ch * nf + c * ch * nf + k * nf + i) x) w) w) w)
      (resize (DFin false 0%R) (fst kernel * snd kernel * ch * nf) w) ;;
    b <- load_vector (at_key d (txt "biases")) nf b ;;
    Ok (DConv f kernel stride padding nf w b).
  (** PoolingLayer::load, pooling.cpp 86-96 *)
  Definition load_pool (t : text) (d : json) : res dlayer :=
    f <- load_fields t d ;;
    kernel <- pair_of d (txt "kernel_size") ;;
    stride <- pair_of d (txt "stride") ;;
    Ok (DPool t f kernel stride).
  (** RecurrentLayer::load, recurrent.cpp 552-620 *)
  Definition load_rec (d : json) (wih whh who bh bo : list dbl) : res dlayer :=
    f <- load_fields (txt "Recurrent") d ;;
    act <- (o <- other d (txt "hidden_activation") ;; as_int o) ;;
    hidden <- (o <- other d (txt "hidden_size") ;; as_size o) ;;
    steps <- (o <- other d (txt "time_steps") ;; as_size o) ;;
    n_in <- size0 (f_in f) ;; n_out <- size0 (f_out f) ;;
    let ws i := (d <- at_key d (txt "weights") ;; at_idx d i) in
    let bs i := (d <- at_key d (txt "biases") ;; at_idx d i) in
    wih <- load_matrix (ws 0) hidden n_in wih ;;
    whh <- load_matrix (ws 1) hidden hidden whh ;;
    who <- load_matrix (ws 2) n_out hidden who ;;
    bh <- load_vector (bs 0) hidden bh ;;
    bo <- load_vector (bs 1) n_out bo ;;
    Ok (DRec f act hidden steps wih whh who bh bo).
  (** load of the class of the layer [l]: [l] as it was before, [d] the document *)
  Definition load (l : dlayer) (d : json) : res dlayer :=
    match l with
    | DPlain t _ => f <- load_fields t d ;; Ok (DPlain t f)
    | DElu _ alpha => f <- load_fields (txt "Elu") d ;; Ok (DElu f alpha)
    | DDense _ w b => load_dense d w b
    | DConv _ _ _ _ _ w b => load_conv d w b
    | DPool t _ _ _ => load_pool t d
    (** dropout.cpp 103-110; the scale is a function of the probability *)
    | DDrop _ _ => f <- load_fields (txt "Dropout") d ;; o <- other d (txt "drop_probability") ;; p <- as_double fl o ;; Ok (DDrop f p)
    (** mse_loss.cpp 89-95 *)
    | DMse _ _ => f <- load_fields (txt "MSELoss") d ;; o <- other d (txt "loss_tolerance") ;; x <- as_double fl o ;; Ok (DMse f x)
    | DRec _ _ _ _ w1 w2 w3 b1 b2 => load_rec d w1 w2 w3 b1 b2
    end.
End Load.

(** *** Models: name and layers (of the State of the calling thread) *)
Record dmodel := mkDM { m_name : text; m_layers : list dlayer }.
(** Model::dump, model.cpp 315-327 *)
Definition dump_model (m : dmodel) : res json :=
  out <- set_key JNull (txt "name") (leaf_text (m_name m)) ;;
  layers <- foldM (fun acc l => x <- dump l ;; append acc x) (m_layers m) JNull ;;
  set_key out (txt "layers") layers.
(** Model::load, model.cpp 329-340, after the document was read. operator\[\](key) on a dictionary
    without the key adds an item without value; it throws when used. *)
Definition get_key (d : json) (k : text) : res json :=
  match d with JNull => Ok JNull | JDict m => Ok (match map_find k m with Some x => x | None => JNull end) | _ => Throw end.
Definition load_model (fl : R -> R) (m : dmodel) (d : json) : res dmodel :=
  jn <- get_key d (txt "name") ;; name <- as_text jn ;;
  ls <- for_ (length (m_layers m)) (fun i ls =>
      js <- get_key d (txt "layers") ;; j <- sub_idx js i ;;
      l <- rd ls i ;; l' <- load fl l j ;; wr ls i l') (m_layers m) ;;
  Ok (mkDM name ls).
(** Saving to a file and loading from it: the printed text is read back *)
Definition read_back (n : nat) (d : json) : option (res json) :=
  match read_item n (s_open (print d)) with
  | Some (Ok (d, _)) => Some (Ok d) | Some Throw => Some Throw | Some UB => Some UB | None => None
  end.
