(** The String methods, and the metrics of /repo as one type, as an aggregate holds them. *)
From Coq Require Import String Ascii DecimalString Decimal.
From Verif Require Import Base F64 NumModel RingModel MinMaxModel HeapModel QuantileModel MomentModel JointModel.
Local Open Scope string_scope.

(** Go's %v of an int. *)
Definition zshow (z : Z) : string := NilEmpty.string_of_int (Z.to_int z).

(** The kind of a metric and the parameters its String method shows. *)
Inductive descr :=
| DMin (w : Z) | DMax (w : Z)
| DMean (w : Z) | DMoment (k w : Z) | DStd (w : Z) | DSkewness (w : Z) | DKurtosis (w : Z)
| DEWMA (d : f64) | DEWMMoment (k : Z) (d : f64) | DEWMStd (d : f64)
| DCov (w : Z) | DCorr (w : Z) | DEWMCov (d : f64) | DEWMCorr (d : f64) | DAutocov (lag w : Z) | DAutocorr (lag w : Z)
| DQuantile (w i : Z) | DMedian (w i : Z) | DIQR (w i : Z) | DHeapMedian (w : Z).

Section Show.
(** Go's %v of a float64 (shortest decimal that reads back as the same number), left abstract. *)
Variable fshow : f64 -> string.
(** name_{p:v} and name_{p:v,q:w} *)
Definition show1 (name p v : string) : string := name ++ "_{" ++ p ++ ":" ++ v ++ "}".
Definition show2 (name p v q w : string) : string := name ++ "_{" ++ p ++ ":" ++ v ++ "," ++ q ++ ":" ++ w ++ "}".
(** minmax/min.go:51-55, max.go:51-55; moment/mean.go:44-48, moment.go:50-57, std.go:42-46, skewness.go:59-63,
    kurtosis.go:59-63, ewma.go:41-45, ewmmoment.go:50-57, ewmstd.go:36-40; joint/cov.go:45-48, corr.go:50-53,
    ewmcov.go:42-45, ewmcorr.go:47-50, autocov.go:58-65, autocorr.go:58-65; quantile/quantile.go:58-65,
    median.go:33-37, iqr.go:31-35, heap_median.go:57-61. An Interpolation is an int without a String method. *)
Definition show (d : descr) : string :=
  match d with
  | DMin w => show1 "minmax.Min" "window" (zshow w)
  | DMax w => show1 "minmax.Max" "window" (zshow w)
  | DMean w => show1 "moment.Mean" "window" (zshow w)
  | DMoment k w => show2 "moment.Moment" "k" (zshow k) "window" (zshow w)
  | DStd w => show1 "moment.Std" "window" (zshow w)
  | DSkewness w => show1 "moment.Skewness" "window" (zshow w)
  | DKurtosis w => show1 "moment.Kurtosis" "window" (zshow w)
  | DEWMA d => show1 "moment.EWMA" "decay" (fshow d)
  | DEWMMoment k d => show2 "moment.EWMMoment" "k" (zshow k) "decay" (fshow d)
  | DEWMStd d => show1 "moment.EWMStd" "decay" (fshow d)
  | DCov w => show1 "joint.Cov" "window" (zshow w)
  | DCorr w => show1 "joint.Corr" "window" (zshow w)
  | DEWMCov d => show1 "joint.EWMCov" "decay" (fshow d)
  | DEWMCorr d => show1 "joint.EWMCorr" "decay" (fshow d)
  | DAutocov l w => show2 "joint.Autocov" "lag" (zshow l) "window" (zshow w)
  | DAutocorr l w => show2 "joint.Autocorr" "lag" (zshow l) "window" (zshow w)
  | DQuantile w i => show2 "quantile.Quantile" "window" (zshow w) "interpolation" (zshow i)
  | DMedian w i => show1 "quantile.Median" "quantile" (show2 "quantile.Quantile" "window" (zshow w) "interpolation" (zshow i))
  | DIQR w i => show1 "quantile.IQR" "quantile" (show2 "quantile.Quantile" "window" (zshow w) "interpolation" (zshow i))
  | DHeapMedian w => show1 "quantile.HeapMedian" "window" (zshow w)
  end.
End Show.

(** metric.go:18-21: a SimpleMetric, one of the types of /repo that implement it. *)
Inductive smetric :=
| SMin (m : mm) | SMax (m : mm) | SMoment (m : @metric f64) | SMedian (q : quant) | SIQR (q : quant)
| SHeap (m : hmed) | SAuto (a : @auto f64).
(** metric.go:42-45: a SimpleJointMetric. *)
Definition jsmetric := @jmetric f64.

Definition kdescr (k : @kind f64) : descr :=
  match k with
  | KMean w => DMean w | KMoment k w => DMoment k w | KStd w => DStd w | KSkew w => DSkewness w | KKurt w => DKurtosis w
  | KEwma d => DEWMA d | KEwmMoment k d => DEWMMoment k d | KEwmStd d => DEWMStd d
  end.
Definition jdescr (k : @jkind f64) : descr :=
  match k with JCov w => DCov w | JCorr w => DCorr w | JEwmCov d => DEWMCov d | JEwmCorr d => DEWMCorr d end.
(** autocov.go:61-62 and autocorr.go:61-62 read the lag and the inner metric's window. The inner metric
    of an Autocov is a Cov, that of an Autocorr a Corr; the other two cases do not occur. *)
Definition adescr (a : @auto f64) : descr :=
  match jm_kind (a_metric a) with JCov w => DAutocov (a_lag a) w | JCorr w => DAutocorr (a_lag a) w | k => jdescr k end.
Definition sdescr (m : smetric) : descr :=
  match m with
  | SMin m => DMin (mm_window m) | SMax m => DMax (mm_window m) | SMoment m => kdescr (m_kind m)
  | SMedian q => DMedian (q_window q) (q_interp q) | SIQR q => DIQR (q_window q) (q_interp q)
  | SHeap m => DHeapMedian (hm_window m) | SAuto a => adescr a
  end.
Definition s_string (fshow : f64 -> string) (m : smetric) : string := show fshow (sdescr m).
Definition j_string (fshow : f64 -> string) (m : jsmetric) : string := show fshow (jdescr (jm_kind m)).

Section Methods.
Variable fN : Num f64.
Variable e : env.
Definition s_push (m : smetric) (x : f64) : res smetric :=
  match m with
  | SMin m => rmap SMin (min_push m x) | SMax m => rmap SMax (max_push m x)
  | SMoment m => rmap SMoment (m_push fN m x)
  | SMedian q => rmap SMedian (q_push q x) | SIQR q => rmap SIQR (q_push q x)
  | SHeap m => rmap SHeap (hm_push m x) | SAuto a => rmap SAuto (auto_push fN a x)
  end.
Definition s_value (m : smetric) : res f64 :=
  match m with
  | SMin m => min_value m | SMax m => max_value m | SMoment m => m_value fN m
  | SMedian q => median_value e q | SIQR q => iqr_value e q
  | SHeap m => hm_value m | SAuto a => auto_value fN a
  end.
Definition s_clear (m : smetric) : res smetric :=
  match m with
  | SMin m => rmap SMin (min_clear m) | SMax m => rmap SMax (max_clear m)
  | SMoment m => rmap SMoment (m_clear fN m)
  | SMedian q => rmap SMedian (q_clear q) | SIQR q => rmap SIQR (q_clear q)
  | SHeap m => rmap SHeap (hm_clear m) | SAuto a => rmap SAuto (auto_clear fN a)
  end.
End Methods.

(** The methods in the form the aggregates' model takes. A failed call leaves the metric unchanged
    (proved for these metrics in PropsEff.v). Simplification: a panic or a hang, which in Go would end or block the
    program, is counted as an error. *)
Definition as_push {M X} (p : M -> X -> res M) (m : M) (x : X) : M * option (res unit) :=
  match p m x with Ok m' => (m', None) | r => (m, Some (rmap (fun _ => tt) r)) end.
Definition as_value {M F} (v : M -> res F) (m : M) : F + res unit :=
  match v m with Ok x => inl x | r => inr (rmap (fun _ => tt) r) end.
Definition as_clear {M} (c : M -> res M) (m : M) : M := match c m with Ok m' => m' | _ => m end.
