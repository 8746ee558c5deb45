# Design: a Rocq model of diatche/curvepy

## Approach

The Python classes are modelled as total Gallina functions, function by
function, in `rocq/theories`.  Exceptions are values (`res A := Ok | Err exn`),
loops are structural or fuelled recursions (running out of fuel is an explicit
error `EFuel`, never a silent answer), objects are records, methods that mutate
return the new record together with the update events they emitted.

Numbers: the code is written against Python int/float.  The model is
parameterised by a record of operations (`Num`) and instantiated with

* `XQ`, exact rationals plus +inf/-inf/nan: all positive theorems are about
  this instance ("IEEE without rounding");
* `B64`, IEEE binary64 from Coq's own `SpecFloat` (plain Gallina): used for
  theorems about rounding.

Where the code does not have the property a user would expect, we prove a
restricted positive theorem *and* a `_refuted` theorem giving a concrete
counterexample evaluated by the kernel; the manifest then says `partial`.

## Trusted base

* Coq 8.16.1 kernel (incl. its VM), and what `Print Assumptions` lists under
  each theorem.  This is "Closed under the global context" for every theorem
  but those of `Properties_Sine.v` (C47), `Properties_Power.v` (C57),
  `Properties_B64.v` (C58 and part of C11), `Properties_Round.v` (C77),
  `Properties_Int64.v` (C79), `Properties_Sum64.v` (C80),
  `Properties_Map64.v` (C82), `Properties_Line64.v` (C83),
  `Properties_Slope64.v` (C84 and part of C58) and `Properties_Offset64.v` (C85).  Those use the standard library's
  real numbers and depend on its axioms
  `ClassicalDedekindReals.sig_not_dec`, `ClassicalDedekindReals.sig_forall_dec`
  and `FunctionalExtensionality.functional_extensionality_dep`;
  `C47_extension`, `C47_extension_reported` and the theorems of C57, C77, C79, C80, C82, C83, C84, C85 and
  `Properties_B64.v` depend on `Classical_Prop.classic` as well.  Flocq adds none.
* `coqchk` additionally lists the axioms of `Coq.ssr.ssrunder`, a standard
  library file loaded by `ZArith`/`Qcanon` tactics; no theorem depends on it.
* External package `intervalpy` (class Interval) is not in /repo and not
  installed.  `Interval.v` is its contract as used here: an interval is
  (start, end, start_open, end_open); empty iff start > end or start = end with
  an open end; `contains` is membership; `union` is the smallest covering
  interval; `extended_to_positive_infinity` keeps the start and makes the end
  infinite; `intersection` is set intersection; `is_superset_of` is set
  inclusion; `intersects` is non-empty intersection; `Interval.empty()` is some
  empty interval, `Interval.infinite()` is (-inf, inf).  `IntervalFacts.v`
  proves the computable definitions have exactly that set meaning.
* Python itself: list, dict and arithmetic semantics as written in `Base.v`
  and `Num.v`.
* Not modelled: the collector (only which objects it may finalise, see C81), pyduration, arrow, numpy
  (its least-squares solver is a parameter with a contract), plotting/printing (`__repr__`),
  floating-point transcendental functions (log, pow); `Sin` is treated over
  the standard library's real numbers.

## Per property plan

| id | model | proof idea |
|----|-------|-----------|
| C01 | Points.y, x_index, _bisect_points | index arithmetic: floor/ceil of (x-x0)/h; bisection invariant |
| C02 | Points state machine with cached domain | invariant over op histories |
| C03 | Points.x_next/x_previous | as C01 |
| C04, C05 | _domain_indexes, sample_points, reset | the two loops find the first/last index inside the interval |
| C06, C07 | replace, append_list | list surgery lemmas |
| C08 | _points_equally_spaced | invariant for single appends; refuted for lists |
| C09 | events emitted by operations | compare y before/after for all x; replace refuted |
| C10 | failing operations | refuted by a concrete history; restricted positive part |
| C11 | same code at B64 | vm_compute counterexample |
| C12-C16 | observer registry and notification loops | list induction; re-entrant removal refuted |
| C17 | forwarding over an arbitrary DAG | induction over the topological order |
| C18-C24 | Curve base class algorithms over an abstract curve interface | loop invariants on fuel |
| C25-C30, C35 | Aggregate, Map, Generic | pointwise algebra |
| C31-C34 | Offset, Line, Piecewise, blend | algebra over Qc, case analysis |
| C36-C40 | Scan/Accumulator/Integral/EMA/AccumulatorMap/SMA over a Points source, with an operation history | cache invariant: cached points are a prefix of the specification |
| C41 | Extension state machine | invariant over queries and source updates; stale domains and raise_on_empty refuted |
| C42 | Extremas state machine over a scan | decomposition of the points into runs, unique; invariant over queries; updates that keep an extrema refuted |
| C43, C44, C49-C53 | Trend helpers, the prediction as a history of points, TrendLine and Trend as state machines | algebra over Qc; invariants generic in the number type; several expectations refuted on concrete runs |
| C45, C46 | parse_descriptor over an abstract world of curves, util.flatten and extend | induction on trees, on the recursion depth and on the items of a mapping; the decorator list is a threaded state |
| C47 | Sin and SinExtension.update_extension_func over R | derivative lemmas of the standard library; sine and cosine of atan2 |
| C54 | Curve.regression | normal equations over Qc; windows of ascending points |
| C55 | Curve.rsi: two EMAs over derived curves of a Points source | agreement of the derived curves with a list of stops; the EMA recurrence; invariant over queries and updates; queries between points refuted |
| C56 | the registrations made in __init__ and removed in __del__, over a heap of registries | refinement of each registry to a list of entries; tokens are unique across curves |
| C57 | pow_many, log_many, pow, raised, log over R | power and logarithm lemmas of the standard library over the aggregate theorems |
| C58 (and C11) | Points at T = binary64 | exactness of IEEE operations on representable results, rounding brackets (Flocq); the SpecFloat operations of the model are shown equal to Flocq's |
| C59 | smma: EMA seeded by an SMA | the accumulator invariant of C40 with a transform that reads the SMA; induction over the points |
| C60 | offset by steps of a duration | floor and ceil to boundaries; case analysis on the cell of x |
| C61 | ao, alligator | hl2 shows its midpoints (the SMA invariant over any such curve); state independence; C60 for the displacement |
| C62 | Scan.sample_points | refinement: sampling through a state is the sampling of the curve the state stands for; rounding to bins is monotone |
| C63 | TrendLine.line_extended, copies, sequence protocol, Trend.lines | case analysis; minimum and maximum of candidates; congruence of update_poi in the dropped fields |
| C64 | TrendLine.update_points_of_interest | invariant of the backward loop and of the line over all events; the side of a line is affine along a chord |
| C65 | Curve.harmonic_smas, centered_macs | Binet's formula for the Lucas numbers; Flocq's nearest-integer rounding over R |
| C66 | count_positional_args, Map, AccumulatorMap, observers | induction over signatures: Python's binding rule |
| C67 | SMA sampled | invariant: queries never move the start of the scan forward; refinement to the sampling of the curve the state stands for |
| C68 | chains of accumulating curves | induction over the chain: a layer over a source that answers like a list answers like the accumulated list, whatever was asked; invariant over histories |
| C69 | changes of derived curves are told | every end argument of a node is covered by one of its notifications (invariant of the update protocol); induction over the network that a change comes from a change of a curve it reads |
| C70 | domains read from inside callbacks | invariant over the calls still to come: a curve that will not fire again has a right cache; a fired curve is followed by a firing of everything that reads it |
| C71 | updates and readings started by callbacks | the calls of every update are numbered; every begun interval is followed at the same curve by an end that covers it; induction over the calls still to come |
| C72 | networks of accumulating curves, maps and aggregates | each curve, in every state that questions lead to, shows the points that its equations give; the notifications are those of the network of C17 |
| C73 | callbacks that raise exceptions | the calls of a broken-off run are a prefix of the clean run's; every begun interval is bounded by what an owed update still brings; induction over the calls of the repairing updates |
| C74 | asking a Trend for its lines | the state is one scan of the first k points (invariant of the loop and of all histories); every line's update point is a scanned point, so an append resets nothing |
| C75 | sampling the extremas | after the scan to the end of the window no query changes the list; x_next agrees with the stops up to that end, so the walk visits exactly them |
| C76 | constants and other curves handed out by class methods | invariant of a heap of constants against the values read off the program |
| C77 | rounding of interpolation and of moving averages | error bounds over Flocq's reals, monotone rounding for the index, contraction for the recurrence |
| C78 | set_trend_with_boundary_points | convex chains: each removal lifts the chain by at most the tolerance; slopes fall along the chain |
| C79 | rounding of the integral | absolute error bounds for each operation of the line, sum bounded by induction; whole numbers tracked exactly |
| C80 | rounding of sums, products and other combinations | induction over the operands with a relative bound; order of doubles embedded in the reals for domains |
| C81 | references, registries and finalisers of a Python heap | invariant over programs: every living derived curve is registered with each source within reach; reachability closed under steps |
| C82 | trailing windows in doubles | x_previous at grid positions, induction on the window; invariant of C77 over histories |
| C83 | straight lines in doubles | products of (1 + d) with the same rounded denominators; rounding is monotone |
| C84 | slopes in doubles | neighbours by C58; one rounded difference over an exact one; rounding is odd and monotone |
| C85 | offset curves in doubles | whole sums are exact; two roundings move a point by at most 2^-19, less than the step's margin |
| C48 | Quotes over Points with candle values, components as Maps, trailing curves as AccumulatorMaps over a component | invariant over histories; the scan theorems for any curve that steps along a list (`ScanView.v`); several expectations refuted |

## What is modelled, file by file

* `Base.v`, `Num.v`, `Interval.v`: exceptions, numbers, the interval contract.
* `Curve.v`: curve.py's update bookkeeping (begin_update, end_update, pending
  intervals, the domain cache), min_step resolution, base stepping, sampling,
  extrapolation, minimise/maximise, x() search.
* `Points.v`: points.py completely (queries, append, append_list, replace, set,
  reset, both interpolations, uniform and irregular), as a state machine whose
  operations return the new state and the emitted events, also on failure.
* `Observer.v`: curve.py's observer registry, priorities, tokens, the two
  notification loops with callbacks that may re-enter the registry.
* `Graph.v`: curves observing curves: begin/end forwarding over any finite
  acyclic network.
* `Combine.v`: aggregate.py, map.py, offset.py, generic.py, constant.py,
  empty.py, line.py, piecewise.py, and the combinators of curve.py (arithmetic,
  min/max/first, subset, blend).  A derived curve holds a snapshot of its
  operands (`crv`): its domain, y, x_next, x_previous and min_step as functions;
  changes of operands over time are the subject of `Graph.v` and the Scan files.
  The methods called on operands may raise; a raised exception is propagated.
* `Scan.v`: scan.py (y, scan, init_scan, notifications), accumulator.py,
  integral.py, ema.py, accumulator_map.py, sma.py as state transformers over a
  snapshot of the source; source operations reach the scan as the event lists
  that `Points.v` emits.  `Scan.sample_points`, `__repr__` and `__del__` are not
  modelled; callables with one or two parameters are both functions of (x, ys).
  Queries made from inside a notification callback are not modelled.
* `Extension.v`: extension.py, extension/constant.py and extension/tangent.py as
  a state machine (lazy refresh of the functions, the interval and the cached
  domain; begin/end notifications of the source).  `Interval.__le__`/`__ge__`
  are external and used on overlapping intervals, so they are arbitrary
  functions `le`, `ge` and the theorems hold for all of them.
* `Regression.v`: curve.py's regression.  `numpy.linalg.lstsq` is a parameter that
  the theorems assume to answer with a least-squares line.  The two-argument
  `Interval(a, b)` is closed.
* `Rsi.v`: curve.py's rsi as the two EMAs (with state) and the update state of the
  four curves between them and the source; the arithmetic on top is `Combine.v`.
* `Trend.v`: trend.py (the geometry helpers, TrendLine, Trend) except
  continue_scan's call of its superclass, line_extended, copies and attributes
  that nothing reads.  Trend receives (x, y) pairs; `TrendScan.v` is the scan
  that feeds them.  numpy's polyfit is a parameter; theorems hold for all of them.
* `Extremas.v`: extremas.py over scan.py (_extrema_scan, scan loop, scanned_y, _i,
  stepping, notifications of source and reference) as a state machine.  The
  inherited sampling that sample_points filters and `__del__` are not modelled.
* `Util.v`: util.py's flatten and extend over trees and string-keyed
  association lists in insertion order.
* `Descriptor.v`: curve.py's parse and parse_descriptor.  Logarithms, powers,
  arrow.get, methods and constructors are a record of arbitrary functions
  (`world`), and the theorems hold for all of them.  Functions named in a
  descriptor answer with curves; an `@args` that is not a sequence raises.
* `Sine.v`: sin.py and extension/sin.py over the real numbers; the notification
  of observers around Sin.set is left out.
* `Quotes.v`: quotes.py (set, append, append_list, encoders, components, hl2, the
  two domains, sampling, get_range, trailing_high and trailing_low) over
  `Points.v` with candles as values.  The duration of the package pyduration is
  a record (is_uniform, the step, span), arbitrary in the theorems.  An encoder
  may raise.  ao and alligator are in `Indicator.v`; the caching of component curves
  is not modelled.
* `Lifetime.v`: the registrations of derived curves and their finalisers.  When
  Python decides to run a finaliser is not modelled (the registry holds a strong
  reference to the bound methods).
* `Power.v`: curve.py's powers and logarithms with real values; a negative number
  to a fractional power is an arbitrary function.
* `B64Facts.v`, `GridFacts.v`, `StepB64.v`, `IrregB64.v`: no new code; the Points
  model instantiated with binary64.  Flocq is used as a library of lemmas about
  SpecFloat operations; it adds the axioms of the standard real numbers and
  `classic`.
* `Smma.v`: curve.py `smma`.  The SMA that supplies the first value is an object
  of its own; its state at each call is an arbitrary function of the source and
  of x restricted to states that satisfy the SMA invariant, which every history
  establishes (`C59_any_sma`).  Whole degrees only.
* `OffsetDur.v`: offset.py with a duration.  pyduration is an external library;
  the record `calendar` holds the five functions Offset calls, and the theorems
  assume (`ticks`) that they move along a strictly increasing sequence of
  boundaries that covers the axis.  `fixed` and `boundaries` are instances.
* `Indicator.v`: Quotes.ao and Quotes.alligator as state machines over the moving
  averages of `hl2`; the stateless Aggregate and Offset around them are evaluated
  directly.
* `ScanSample.v`: Curve.sample_points with the state of the curve passed through its
  queries, and Scan.sample_points of an accumulator on top of it.
* `TrendMore.v`: TrendLine.line_extended, len, indexing, iteration, copies and x; the two
  tolerance tests over a fit; Trend.lines, upper and lower after their scan.
* `Harmonic.v`: harmonic_smas and centered_macs, over the reals.
* `Callables.v`: count_positional_args, the adaptation of functions by Map and AccumulatorMap
  and of callbacks by add_observer; Python's binding of positional arguments.
* `SmaSample.v`: sample_points, scan and domain reads of SMA as inherited from Scan.
* `Tower.v`: Scan over a source that itself has state (scan.py:6-114, accumulator.py:7-48), for Integral, EMA and AccumulatorMap layers; `TowerAgree.v` proves that one layer is the model of `Scan.v`.
* `Live.v`: networks of Map, Offset, Aggregate and Piecewise nodes with both their values (`Combine.v`) and their notifications (`Graph.v`); sources change from outside, `LivePoints.v` connects Points.
* `LiveReads.v`: the networks of `Live.v` with domain readings from inside the notification callbacks (`hook`), which fill caches in the middle of an update.
* `Nest.v`: the networks of `Live.v` with callbacks that read domains and run complete updates of sources in the middle of an update, to any depth (`hook`, `session`); `p_append_cb`: `Points.append_list` with a callback acting on the same curve.
* `Weave.v`: networks of accumulating curves, maps and aggregates over one source, with the state of every curve (`w_curve`), and their notifications (`w_tell`).
* `Fault.v`: the notifications of `Graph.v` with callbacks that raise at any point (`fault_op`, `calls`, `attempt`), and `Points.append_list` when `begin_update` raises (`p_append_broken`).
* `TrendScan.v`: a Trend as a curve: its scan, `y`, `upper`, `lower` and the notifications of its source (`ts_y`, `ts_side`, `ts_events`), over the lines of `Trend.v`.
* `ExtremasSample.v`: sampling an Extremas curve (`ex_scan_sample`, `ex_sample_points`).
* `Factory.v`: `Constant` objects on a heap with the shared `_zero` (`k_set`, `exec`, `run`), `Empty`, and `Curve.extension` with the constructors' arguments (`extension`, `tangent_args`).  Observers of the constants are the events; the arguments `start`, `end`, `uniform`, `raise_on_empty` and `min_step` are in `Extension.v`.
* `ErrB64.v`, `InterpB64.v`, `AccB64.v`, `EmaB64.v`: no new code, but the binary64 instance of `Points.v` and `Scan.v` with Flocq's reals as the specification (`val64`).
* `TrendHull.v`, `TrendHullSet.v`, `TrendHullTop.v`: no new code; the chain of boundary points that `Trend.v`'s `set_trend` leaves.
* `BetweenB64.v`, `IntB64.v`, `IntSumB64.v`: no new code, but the binary64 instance of `line_args`, `line_partial_integration` and `integral_scan`.  `a ** 2` is a product of doubles; Python's power may differ from it in the last place.
* `SumB64.v`, `SumErrB64.v`, `ProdB64.v`: no new code, but the binary64 instance of the combinations of `Combine.v` and of intersections of intervals.  `sum` is a left fold of rounded additions (CPython up to 3.11; from 3.12 on it compensates).
* `Retain.v`: attributes, callbacks and variables as references between numbered objects; `GFinal` is the interpreter's choice among unreachable objects (reference counting and the cycle collector are instances).  Weak references to unreachable objects may be cleared before or after a finaliser runs.  Resurrection does not occur, as no finaliser stores `self`.
* `MapB64.v`: AccumulatorMap with a number of points over a Points object in binary64; the functions of a Python programmer are any Gallina function of the position and the window.
* `WeaveAgree.v`: Aggregate and Map with a kept domain against `Combine.v`, over sources with different domains.
* `LineB64.v`, `LineInt64.v`, `LineVert64.v`: Line, its integral and vertical lines in binary64, with the bounds on magnitudes that exclude overflow.
* `SlopeB64.v`, `SlopeMid64.v`, `StepBetween64.v`: d_y and differential of sampled curves, and x_next and x_previous between the points, in binary64.
* `TrendPoi.v`: the points of interest a trend line prediction is made from.
* `OffsetB64.v`: offset curves over sampled points in binary64 (offset.py:37-127).
* `BaseClimb.v`, `TrendFork.v`, `DescriptorArgs.v`: no new code; the way minimise and maximise go, first_point and last_point, when a trend line is begun, and the arguments under `@args`.

Simplifications: keyword arguments that only rename or print are dropped;
`assert isinstance` checks that the typing already guarantees are dropped;
`**kwargs` are explicit arguments.
