{"id": "C01", "title": "Points evaluates by its interpolation rule", "statement": "For a Points curve whose stored x values are finite and strictly ascending (and whose is_uniform answer is truthful), y(x) is the stored value when x is a stored x; strictly between two neighbouring stored points it is the linear blend, the previous value or the next value according to the interpolation mode (None if a linear neighbour is None); outside [first x, last x] it is None. It never raises.", "quantifier": "every point list, every length, every interpolation mode, uniform and non-uniform spacing, every finite x (exact arithmetic)", "why_tests_cant": "The index arithmetic has infinitely many (list, x) pairs; tests sample three-point lists.", "anchors": ["curvepy/points.py:Points.y", "curvepy/points.py:Points.x_index", "curvepy/points.py:_bisect_points"]}
{"id": "C02", "title": "Points.domain is always the closed span of the stored points", "statement": "After the constructor and after any sequence of successful set/append/append_list/replace/reset calls interleaved with queries, domain is empty iff there are no points and otherwise is the closed interval [first x, last x]; the cached domain is never stale and is_updating is False.", "quantifier": "every finite history of successful operations and queries", "why_tests_cant": "The domain is cached and invalidated by the update protocol; staleness depends on the history.", "anchors": ["curvepy/points.py:Points.get_domain", "curvepy/curve.py:Curve.domain", "curvepy/curve.py:Curve.end_update"]}
{"id": "C03", "title": "Points.x_next / x_previous find the neighbouring stored point", "statement": "x_next(x, min_step=s) is the least stored x that is >= x+s and None if there is none; x_previous(x, min_step=s) is the greatest stored x that is <= x-s and None if there is none.", "quantifier": "every well-formed point list, every finite x and every finite min_step", "why_tests_cant": "Off-by-one errors of floor/ceil index arithmetic show only at particular x/step combinations.", "anchors": ["curvepy/points.py:Points.x_next", "curvepy/points.py:Points.x_previous"]}
{"id": "C04", "title": "Points.sample_points(domain) returns exactly the stored points inside domain", "statement": "Without an irregular step, sample_points(domain) is the list of stored points whose x lies in domain, in order, for every combination of open/closed/infinite ends; sample_points() is all the points.", "quantifier": "every well-formed point list and every interval", "why_tests_cant": "The result comes from two index-adjusting loops over floor/ceil indexes; the open/closed/boundary cases multiply.", "anchors": ["curvepy/points.py:Points.sample_points", "curvepy/points.py:Points._domain_indexes"]}
{"id": "C05", "title": "Points.reset(domain) removes exactly the points inside domain", "statement": "On a Points curve with uniform=False, reset(domain) succeeds and leaves exactly the stored points whose x is outside domain, in order; with no argument it removes everything. On a uniform curve a reset that leaves a head or a tail succeeds the same way.", "quantifier": "every well-formed point list and every interval", "why_tests_cant": "Same index loops as sampling plus the head/tail surgery; depends on every boundary alignment.", "anchors": ["curvepy/points.py:Points.reset", "curvepy/points.py:Points._domain_indexes"]}
{"id": "C06", "title": "Points.replace changes one point only", "statement": "replace((x,v)) with x equal to a stored x overwrites that value and nothing else; with x strictly between stored points and uniform=False it inserts the point at its sorted place; with x outside the domain it raises unless or_append is set, in which case it behaves as append.", "quantifier": "every well-formed point list and every point", "why_tests_cant": "The affected index comes from ceil of a computed index.", "anchors": ["curvepy/points.py:Points.replace"]}
{"id": "C07", "title": "Appending keeps the stored points strictly ascending and in order", "statement": "append/append_list either raise or extend the stored list with exactly the given points at the end; a first new x that is not greater than the last stored x is always rejected with the stored points untouched; appending one point at a time always leaves the xs strictly ascending.", "quantifier": "every state and every appended list", "why_tests_cant": "Must hold for every history of appends.", "anchors": ["curvepy/points.py:Points.append", "curvepy/points.py:Points.append_list"]}
{"id": "C08", "title": "uniform=True really guarantees equal spacing", "statement": "A Points curve created with uniform=True never holds points that are not equally spaced, and is_uniform is True only if the stored points are equally spaced.", "quantifier": "every history of constructor/append/append_list/set calls", "why_tests_cant": "The guard only compares the last x with an extrapolation; counterexamples need a particular shape.", "anchors": ["curvepy/points.py:Points._points_equally_spaced", "curvepy/points.py:Points.is_uniform"]}
{"id": "C09", "title": "The notified update interval covers every x whose value changed", "statement": "Whenever a Points operation changes y(x) for some x, that x lies in the interval passed to the begin and end callbacks.", "quantifier": "every operation (append_list, set, reset, replace), every state, every x", "why_tests_cant": "Requires comparing the whole function before and after for all x.", "anchors": ["curvepy/points.py:Points.append_list", "curvepy/points.py:Points.reset", "curvepy/points.py:Points.set", "curvepy/points.py:Points.replace"]}
{"id": "C10", "title": "A rejected Points operation leaves the curve as it was", "statement": "If append_list/set/replace/reset raises, the curve keeps its points and domain, is_updating is False, and later successful operations behave as if the rejected call had not happened.", "quantifier": "every state, every rejected call, every later history", "why_tests_cant": "Failure-atomicity is a property of all continuations after the failure.", "anchors": ["curvepy/points.py:Points.append_list", "curvepy/points.py:Points.set", "curvepy/curve.py:Curve.begin_update", "curvepy/curve.py:Curve.end_update"]}
{"id": "C11", "title": "Points lookup is exact under binary64 rounding", "statement": "For a uniform Points curve of IEEE double x values that the constructor accepted, y at every stored x returns the stored value and does not raise.", "quantifier": "every accepted list of double-precision points", "why_tests_cant": "Rounding failures appear only for particular lengths and steps.", "anchors": ["curvepy/points.py:Points.x_index", "curvepy/points.py:Points.y"]}
{"id": "C12", "title": "Observers are called in priority order and only for intersecting updates", "statement": "begin_update(d)/end_update call exactly the observers whose domain intersects the update and that have the respective callback, each at most once per notification, prioritised observers first (latest prioritised first) and then the others in order of registration; an observer gets the interval iff its callback takes one positional argument.", "quantifier": "every set of observers and every interval", "why_tests_cant": "Order and filtering must hold for arbitrary registration histories.", "anchors": ["curvepy/curve.py:Curve.add_observer", "curvepy/curve.py:Curve.begin_update", "curvepy/curve.py:Curve.end_update"]}
{"id": "C13", "title": "A completed update notifies once and leaves the curve idle", "statement": "From an idle curve, begin_update(d); end_update(d) calls every matching observer's begin once and then end once with d, drops the cached domain, and leaves is_updating False.", "quantifier": "every non-empty interval, every observer set, every idle state", "why_tests_cant": "State machine over intervals; must hold from every reachable idle state.", "anchors": ["curvepy/curve.py:Curve.begin_update", "curvepy/curve.py:Curve.end_update", "curvepy/curve.py:Curve.is_updating"]}
{"id": "C14", "title": "End notifications wait until everything begun has ended", "statement": "During nested updates no end callback fires while the union of ended intervals does not cover the union of begun intervals; when it does fire, the reported interval covers everything begun; after ending every begun interval in any order the curve is idle.", "quantifier": "every sequence of begin/end calls on one curve", "why_tests_cant": "Arbitrary interleavings of nested updates.", "anchors": ["curvepy/curve.py:Curve.begin_update", "curvepy/curve.py:Curve.end_update"]}
{"id": "C15", "title": "Observer tokens are unique and removal is final", "statement": "Every registration with at least one callback gets a fresh positive token (0 is returned for none); after remove_observer(token) or remove_observer(object) no callback of the removed registrations is ever called again, all other registrations are kept in order, and removing an unknown token changes nothing.", "quantifier": "every registration/removal history", "why_tests_cant": "History property over unbounded registration sequences.", "anchors": ["curvepy/curve.py:Curve.add_observer", "curvepy/curve.py:Curve.remove_observer"]}
{"id": "C16", "title": "Callbacks may unregister observers during a notification", "statement": "A callback that removes observers (itself or others) does not make the notification raise, and every observer that stays registered is still called.", "quantifier": "every observer list and every set of removals made by callbacks", "why_tests_cant": "Depends on the interleaving of removal and iteration.", "anchors": ["curvepy/curve.py:Curve.begin_update", "curvepy/curve.py:Curve.end_update", "curvepy/curve.py:Curve.remove_observer"]}
{"id": "C17", "title": "Source updates settle every derived curve", "statement": "In any acyclic network of derived curves (map/aggregate style forwarding), a completed update of a source leaves every curve of the network idle with its cached domain dropped if it depends on the source, and begins and ends reach exactly the dependants; in a network without shared paths each dependant is notified exactly once.", "quantifier": "every finite acyclic network, every source, every interval", "why_tests_cant": "Arbitrary graph shapes (shared sub-curves, depth).", "anchors": ["curvepy/curve.py:Curve.begin_update", "curvepy/curve.py:Curve.end_update", "curvepy/map.py:Map", "curvepy/aggregate.py:Aggregate"]}
{"id": "C18", "title": "min_step resolution takes the coarser step", "statement": "resolve_min_step(s) is None iff neither the argument nor the curve has one, otherwise the larger of those present; it is idempotent.", "quantifier": "every pair of optional steps incl. infinity", "why_tests_cant": "Simple, but every stepping function relies on it for all values.", "anchors": ["curvepy/curve.py:Curve.resolve_min_step"]}
{"id": "C19", "title": "Base stepping moves by exactly one step, clipped to limit, inside the domain", "statement": "For a curve using the base class stepping, x_next(x, s, limit) is x+s (the domain end when s is infinite), clipped to limit, and None exactly when that point is past the domain end; x_previous mirrors this.", "quantifier": "every domain, x, step and limit", "why_tests_cant": "Boundary combinations of open ends, infinite steps and limits.", "anchors": ["curvepy/curve.py:Curve.x_next", "curvepy/curve.py:Curve.x_previous"]}
{"id": "C20", "title": "sample_points yields an ordered sample of the curve inside the domain", "statement": "sample_points returns strictly ascending x values inside the requested domain intersected with the curve's domain, each paired with y(x); with step=h they are exactly start, start+h, ... up to the end; with the default stepping the first and last are the ends of the domain; an infinite domain raises and an empty one gives [].", "quantifier": "every domain, step and curve", "why_tests_cant": "Loop with accumulated x; termination and boundary behaviour for all sizes.", "anchors": ["curvepy/curve.py:Curve.sample_points"]}
{"id": "C21", "title": "sample_points_from_x returns the next limit points", "statement": "sample_points_from_x(x, n, min_step=s) returns up to n points found by repeated x_next (x_previous when backward or n negative), starting at x itself unless open=True.", "quantifier": "every curve, x, n and direction", "why_tests_cant": "Loop over arbitrary counts.", "anchors": ["curvepy/curve.py:Curve.sample_points_from_x"]}
{"id": "C22", "title": "d_y is the one-sided difference quotient to the neighbouring point", "statement": "d_y(x, forward) is (y(x1)-y(x))/(x1-x) for x1=x_next(x) or x_previous(x), None if any of these is None; on a Points curve it is the slope of the adjacent segment.", "quantifier": "every curve, x and direction", "why_tests_cant": "Must hold for all curves.", "anchors": ["curvepy/curve.py:Curve.d_y", "curvepy/curve.py:Curve.differential"]}
{"id": "C23", "title": "get_range is the tightest interval of the sampled values", "statement": "get_range returns the closed interval from the smallest to the largest sampled value (both attained), and the empty interval iff there is no sample.", "quantifier": "every sample list", "why_tests_cant": "Universally quantified over lists.", "anchors": ["curvepy/curve.py:Curve.get_range"]}
{"id": "C24", "title": "minimise/maximise stop only at a local optimum", "statement": "When minimise(x) returns a position before exhausting its iterations and with both neighbours defined, the value there is strictly smaller than at both neighbours; maximise mirrors this; the number of steps is bounded by max_iterations.", "quantifier": "every curve and start", "why_tests_cant": "A search loop over arbitrary curves.", "anchors": ["curvepy/curve.py:Curve.minimise", "curvepy/curve.py:Curve.maximise"]}
{"id": "C25", "title": "Curve arithmetic is pointwise", "statement": "For all curves f,g and x in the common domain: (f+g)(x)=f(x)+g(x), and likewise -,*,/,negation,abs,inverse; the result is None if any operand is None; outside the common domain it is None; numbers act as constant curves; + and * are commutative and associative on values; subtract_many subtracts all later operands from the first.", "quantifier": "all operand lists, all x", "why_tests_cant": "Algebraic laws over all functions.", "anchors": ["curvepy/curve.py:Curve.add_many", "curvepy/curve.py:Curve.subtract_many", "curvepy/curve.py:Curve.multiply_many", "curvepy/curve.py:Curve.divide_many", "curvepy/aggregate.py:Aggregate.y"]}
{"id": "C26", "title": "Aggregate domain is the intersection (or hull) of the operand domains", "statement": "x is in the domain of an arithmetic aggregate iff it is in every operand's domain; with union=True the domain is the smallest interval covering all of them.", "quantifier": "all operand lists", "why_tests_cant": "Set-theoretic statement over all intervals.", "anchors": ["curvepy/aggregate.py:Aggregate.get_domain"]}
{"id": "C27", "title": "Aggregate stepping visits every operand's points", "statement": "Aggregate.x_next(x) is the least operand x_next that is greater than x (None if there is none) and x_previous the greatest operand x_previous smaller than x.", "quantifier": "all operand lists, all x", "why_tests_cant": "Fold with None handling; all orders of operands.", "anchors": ["curvepy/aggregate.py:min_or_none", "curvepy/aggregate.py:max_or_none"]}
{"id": "C28", "title": "Division never raises on a zero divisor", "statement": "divide_many maps a division by zero to +inf for a non-negative running result and -inf for a negative one, and otherwise is exact division.", "quantifier": "all operand values", "why_tests_cant": "All values incl. zeros and infinities in any position.", "anchors": ["curvepy/curve.py:Curve.divide_many"]}
{"id": "C29", "title": "min/max/first select among the defined operand values", "statement": "Curve.min (max) returns the least (greatest) non-None operand value and None iff all are None; Curve.first returns the first non-None operand value.", "quantifier": "all operand lists and values", "why_tests_cant": "All orders and None patterns.", "anchors": ["curvepy/curve.py:Curve.min", "curvepy/curve.py:Curve.max", "curvepy/curve.py:Curve.first"]}
{"id": "C30", "title": "Map is transparent apart from the transform", "statement": "map(t) has the source's domain, y(x)=t(x, source.y(x)) (None when skip_none and the source is None), and steps exactly as the source does; mapping twice equals mapping the composition.", "quantifier": "every source, transform and x", "why_tests_cant": "All functions.", "anchors": ["curvepy/map.py:Map"]}
{"id": "C31", "title": "Offset shifts a curve without changing it", "statement": "offset(a) satisfies y(x)=source.y(x-a) inside the shifted domain and None outside, domain shifted by a, x_next(x)=source.x_next(x-a)+a, update intervals shifted by a; offset(a) then offset(b) agrees with offset(a+b).", "quantifier": "every source, offset and x", "why_tests_cant": "All functions and shifts; limit handling shows only with some offsets.", "anchors": ["curvepy/offset.py:Offset"]}
{"id": "C32", "title": "Line passes through its defining points and inverts", "statement": "Line(p1,p2) with different xs satisfies y(p1.x)=p1.y and y(p2.x)=p2.y, slope is constant difference quotient, x(y(t))=t for non-zero slope, set() notifies iff the line changed, and partial_integration(a,b) is the exact area and additive in the bounds.", "quantifier": "all points, slopes and x", "why_tests_cant": "Algebraic identities over all numbers.", "anchors": ["curvepy/line.py:Line"]}
{"id": "C33", "title": "Piecewise evaluates the piece owning x", "statement": "With ascending non-overlapping domains, y(x) is funcs[i].y(x) for the unique i with x in domains[i] and None if there is none; x_next/x_previous step to the neighbouring point of the owning pieces.", "quantifier": "all piece lists and x", "why_tests_cant": "All boundary configurations.", "anchors": ["curvepy/piecewise.py:Piecewise"]}
{"id": "C34", "title": "blend joins two curves continuously", "statement": "f.blend(g,a,b) equals f up to a, g from b on, and (1-u)f+ug with u=(x-a)/(b-a) between, so it agrees with f at a and with g at b.", "quantifier": "all curves f,g and a<b, all x", "why_tests_cant": "All functions and x.", "anchors": ["curvepy/curve.py:Curve.blend"]}
{"id": "C35", "title": "subset restricts and never evaluates outside", "statement": "subset(d).y(x) is the source value for x in d and None otherwise, without evaluating the source outside d.", "quantifier": "every source, domain, x", "why_tests_cant": "All functions.", "anchors": ["curvepy/curve.py:Curve.subset", "curvepy/generic.py:Generic"]}
{"id": "C36", "title": "Integral equals the accumulated area, whatever was asked or changed before", "statement": "For a uniform Points source, integral(const).y at the k-th point is const plus the exact area of the first k trapezoids (left/right rectangles for previous/next interpolation), linear in between, None outside - after every history of queries at any x and of successful source appends, replaces, sets and resets.", "quantifier": "every source, every history of queries and source updates", "why_tests_cant": "The result is produced from an incrementally maintained cache; staleness depends on the history.", "anchors": ["curvepy/integral.py:Integral", "curvepy/accumulator.py:Accumulator", "curvepy/scan.py:Scan"]}
{"id": "C37", "title": "EMA follows its recurrence and stays inside the data range", "statement": "ema(alpha) at successive points satisfies E0=y0 and E(k+1)=E(k)+alpha*(y(k+1)-E(k)); for 0<=alpha<=1 it lies between the least and greatest input so far; a constant input gives that constant; independent of query history.", "quantifier": "every source list, alpha, history", "why_tests_cant": "Unbounded recurrences and histories.", "anchors": ["curvepy/ema.py:EMA"]}
{"id": "C38", "title": "Trailing min/max use exactly the trailing window", "statement": "trailing_max(n) at the k-th point is the maximum of the last min(n,k+1) values, trailing_min the minimum, for every history.", "quantifier": "every source list, n, history", "why_tests_cant": "Window boundaries at every k and n.", "anchors": ["curvepy/accumulator_map.py:AccumulatorMap", "curvepy/curve.py:Curve.trailing_min"]}
{"id": "C39", "title": "SMA is the moving average of the source", "statement": "sma(n) at a point is the arithmetic mean of the last n values and linear between neighbouring points.", "quantifier": "every source list, n, x and history", "why_tests_cant": "All data shapes; symmetric test data hides weighting errors.", "anchors": ["curvepy/sma.py:SMA.y"]}
{"id": "C40", "title": "Derived scans do not depend on the order of queries", "statement": "y(x) of an accumulating curve (integral etc.) does not depend on which x were queried before.", "quantifier": "every source, every query history", "why_tests_cant": "Quantifies over histories.", "anchors": ["curvepy/scan.py:Scan.scan", "curvepy/accumulator.py:Accumulator"]}
{"id": "C41", "title": "Extensions agree with the curve inside and extrapolate outside", "statement": "A constant extension equals the curve on its domain and the edge value beyond an extended edge; a tangent extension continues with the line through the edge point with the edge slope; unextended sides stay None.", "quantifier": "every curve, every x, all start/end combinations", "why_tests_cant": "All curves and x.", "anchors": ["curvepy/extension/extension.py:Extension", "curvepy/extension/constant.py", "curvepy/extension/tangent.py"]}
{"id": "C42", "title": "Extremas alternate around the reference", "statement": "Confirmed extremas have strictly ascending x, alternate between above and below the reference, deviate by more than min_deviation, and each is the most extreme source point of its run.", "quantifier": "every source and reference", "why_tests_cant": "Fold over arbitrary sequences.", "anchors": ["curvepy/extremas.py:Extremas._extrema_scan"]}
{"id": "C43", "title": "Trend geometry helpers are exact", "statement": "_insort_point_left keeps lists sorted and inserts exactly once (not at all for repeats with no_repeat); _line_y/_line_x lie on the line; _line_intersection returns the common point of two lines and None iff they are parallel; tolerance bounds bracket the value.", "quantifier": "all lists, points and lines", "why_tests_cant": "Binary search and geometry over all inputs.", "anchors": ["curvepy/trend.py:_insort_point_left", "curvepy/trend.py:_line_y", "curvepy/trend.py:_line_x", "curvepy/trend.py:_line_intersection"]}
{"id": "C44", "title": "Trend predictions only move forward", "statement": "A trend line's prediction phase never decreases during an update, success and failure are mutually exclusive, success happens only in the final phase after intersection, retest and confirmation in that order.", "quantifier": "every sequence of extrema/tangent/intersection points", "why_tests_cant": "State machine over arbitrary event sequences.", "anchors": ["curvepy/trend.py:TrendLine.update_prediction"]}
{"id": "C45", "title": "Descriptor parsing scopes decorators and chains functions", "statement": "parse_descriptor restores the decorator stack on every successful return, a literal is converted iff an enclosing decorator asks for it, and $-keys chain left to right.", "quantifier": "every descriptor tree", "why_tests_cant": "Recursive grammar of unbounded depth.", "anchors": ["curvepy/curve.py:Curve.parse_descriptor"]}
{"id": "C46", "title": "util.flatten/extend behave as advertised", "statement": "flatten yields the leaves of a nested list left to right; extend copies keys of the others over primary, later ones winning, leaving the inputs unchanged unless in_place.", "quantifier": "all nested lists / mappings", "why_tests_cant": "Recursive structures of unbounded depth.", "anchors": ["curvepy/util.py:flatten", "curvepy/util.py:extend"]}
{"id": "C47", "title": "Sin reports its true slope and the sine extension is tangent", "statement": "Sin.d_y(x) is the derivative of Sin.y at x; the sine extension passes through the edge point with the edge slope.", "quantifier": "all amplitudes, periods, phases, x (real numbers)", "why_tests_cant": "Analytic identity over the reals.", "anchors": ["curvepy/sin.py:Sin.d_y", "curvepy/extension/sin.py"]}
{"id": "C48", "title": "Quotes expose the stored candles", "statement": "close/open/high/low/volume/hl2 at x are the respective components of the candle covering x, None outside; trailing_high/trailing_low are the trailing max of highs and min of lows; appending candle by candle equals setting the whole list.", "quantifier": "every candle list and x", "why_tests_cant": "All candle lists.", "anchors": ["curvepy/quotes.py:Quotes"]}
{"id": "C49", "title": "Collinear points make a valid trend line", "statement": "A trend line fed points that lie on one straight line, wide enough and at least min_points of them, becomes valid with exactly those points in order.", "quantifier": "all straight lines, all numbers of points, all tolerances", "why_tests_cant": "All lengths; the failure needs at least four collinear points and min_points >= 4.", "anchors": ["curvepy/trend.py:TrendLine.set_trend_with_boundary_points", "curvepy/trend.py:TrendLine.is_valid"]}
{"id": "C50", "title": "Trend lines are made of scanned points and stay consistent", "statement": "After any sequence of appended points and updates, the trend and boundary points of every line were appended, its tangents and extremas were scanned, the line is the fit of the trend points and the tolerance lines belong to it.", "quantifier": "every sequence of scans and updates, every polyfit", "why_tests_cant": "State over arbitrary histories and nested levels.", "anchors": ["curvepy/trend.py:TrendLine.update_trend", "curvepy/trend.py:Trend._trend_scan"]}
{"id": "C51", "title": "Upper and lower levels stay aligned and updates can be rescanned", "statement": "The numbers of nested upper and lower levels are equal, and scanning the same points again after begin_update gives the lines that scanning them once gives.", "quantifier": "every sequence of scans and updates", "why_tests_cant": "Needs a history with nested levels and an update.", "anchors": ["curvepy/trend.py:Trend.begin_update", "curvepy/trend.py:Trend._trend_scan"]}
{"id": "C52", "title": "min_point_distance is enforced", "statement": "The lines of a Trend have at least min_points - 1 gaps of min_point_distance between their trend points.", "quantifier": "every distance and history", "why_tests_cant": "The argument is dropped for every input.", "anchors": ["curvepy/trend.py:Trend._create_line", "curvepy/trend.py:TrendLine.is_valid"]}
{"id": "C53", "title": "Fitting the boundary terminates and removes only what it prunes", "statement": "set_trend_with_boundary_points terminates without raising on ascending points, keeps the ends of the boundary, chooses a line between two of its points, and removes from the boundary exactly the points strictly inside.", "quantifier": "every ascending list of points and all tolerances", "why_tests_cant": "Nested removal loops over arbitrary lists.", "anchors": ["curvepy/trend.py:TrendLine.set_trend_with_boundary_points"]}
{"id": "C54", "title": "regression is the least-squares line of the sampled points", "statement": "regression(domain) is None when fewer than two points are sampled or a sampled value is None; otherwise it is the unique line that minimises the sum of squared residuals of the sampled points, which for Points are exactly the stored points inside the domain.", "quantifier": "every finite set of points with two different positions, every domain, every least-squares solver", "why_tests_cant": "Minimality is over all lines and all point sets.", "anchors": ["curvepy/curve.py:Curve.regression", "curvepy/extension/tangent.py:TangentExtension.update_extension"]}
{"id": "C55", "title": "The relative strength index lies between 0 and 100 and follows its definition", "statement": "rsi(degree) at a point is 100 U / (U + D), with U and D the exponential averages (weight 1/degree, starting from 0) of the rises and falls per unit of x since the first point; it lies in [0, 100], is 100 while the source has never fallen and 0 when it has only fallen; it is None outside of the source's domain; and the value does not depend on earlier queries.", "quantifier": "every operation history of the source, every sequence of queries at points, every degree of at least 1", "why_tests_cant": "Two cached averages over derived curves have to stay in step with any history of updates and queries.", "anchors": ["curvepy/curve.py:Curve.rsi", "curvepy/ema.py:EMA._ema_scan"]}
{"id": "C56", "title": "A derived curve that is finalised leaves its sources", "statement": "When a derived curve is finalised, all the registrations it made with its sources are removed, and no registration of another living observer is.", "quantifier": "every kind of derived curve, every list of operands, every history of all registries before, during and after", "why_tests_cant": "Depends on the iteration order of a set of objects and on the registrations of unrelated observers.", "anchors": ["curvepy/map.py:Map.__del__", "curvepy/aggregate.py:Aggregate.__del__", "curvepy/piecewise.py:Piecewise.__del__", "curvepy/extremas.py:Extremas.__del__", "curvepy/extension/extension.py:Extension.__del__"]}
{"id": "C57", "title": "Powers and logarithms of curves are pointwise and undo each other", "statement": "f.log(b) at x is the exponent r with b^r = f(x), ordered like f for b > 1; f.log(b).raised(b) and f.raised(b).log(b) are f; f.pow(n) is the n-fold product for whole n, the reciprocal for negative n, and the real power for positive values; several operands associate to the left; None where an operand is None or outside of a domain; undefined logarithms and negative powers of zero raise.", "quantifier": "all curves, positions, values, bases and exponents", "why_tests_cant": "Identities over all real values and bases.", "anchors": ["curvepy/curve.py:Curve.pow_many", "curvepy/curve.py:Curve.log_many", "curvepy/curve.py:Curve.raised", "curvepy/curve.py:Curve.log"]}
{"id": "C58", "title": "Stepping over a binary64 grid reaches the neighbouring knot", "statement": "On a uniform Points curve of double-precision positions, x_next and x_previous from a stored position return the neighbouring stored position, and None past the ends.", "quantifier": "all uniform double-precision grids, steps and histories", "why_tests_cant": "Whether the step survives rounding depends on the size of the positions.", "anchors": ["curvepy/points.py:Points.x_next", "curvepy/points.py:Points.x_previous", "curvepy/curve.py:MIN_STEP"]}
{"id": "C59", "title": "The smoothed moving average starts with the SMA and follows its recurrence", "statement": "smma(n) is None before the n-th point, equals sma(n) at the n-th point, and at each later point is the previous value plus (y - previous)/n; between points it is linear, it stays inside the range of the data, and it does not depend on what was asked or changed before. Its first value is the mean of the first n values.", "quantifier": "all degrees, all equally spaced data, all histories of queries and source changes, all states of the SMA that supplies the first value", "why_tests_cant": "The first value comes from a second scan with its own state; whether a query order or an update leaves the two scans out of step depends on the whole history.", "anchors": ["curvepy/curve.py:Curve.smma", "curvepy/ema.py:EMA._ema_scan", "curvepy/sma.py:SMA.y"]}
{"id": "C60", "title": "An offset with a duration moves the curve by whole steps of the duration", "statement": "For a duration with boundaries g_i and an integer n, the offset curve has at g_i the value and slope of the source at g_(i-n), is linear between boundaries, has the source's domain moved n boundaries, steps from boundary to boundary, adds up over repeated offsets and is the identity for n = 0. Values outside the announced interval do not change. The curve equals the source translated, its domain holds only x that have values, and x_next finds the next point from any x before the domain.", "quantifier": "all durations with strictly increasing boundaries, uniform or not, all n, all source curves, all x", "why_tests_cant": "The tests use 1 s and 20 h on points that lie on the boundaries with linear interpolation; off the boundaries and with other interpolations the result differs.", "anchors": ["curvepy/offset.py:Offset._interpolated_func", "curvepy/offset.py:Offset._res_step", "curvepy/offset.py:Offset.x_next", "curvepy/offset.py:Offset._offset_interval"]}
{"id": "C61", "title": "ao and alligator are displaced and subtracted averages of the midpoints", "statement": "After any history of uniform Quotes, ao at a candle from the 34th on is the difference of the averages of the last 5 and the last 34 midpoints; it has a value exactly between the 34th and the last candle, bounded by the spread of the midpoints, and the same after every history. Jaw, teeth and lips are the averages of the last 13, 8 and 5 midpoints moved 8, 5 and 3 periods of the duration. The averages are arithmetic means.", "quantifier": "all Quotes histories interleaved with queries, all candles, all x, all durations", "why_tests_cant": "There are no tests of ao or alligator; the values depend on stateful scans over histories of any length.", "anchors": ["curvepy/quotes.py:Quotes.ao", "curvepy/quotes.py:Quotes.alligator", "curvepy/sma.py:SMA.y", "curvepy/offset.py:Offset._interpolated_func"]}
{"id": "C62", "title": "Sampling an accumulating curve returns its accumulated points", "statement": "After any history, sample_points of an Integral, EMA or trailing curve without a domain returns one row per point of the source with the accumulated value; in a finite window the rows are at its ends and at the points in it at least the minimum step after its start; with a step at its multiples; all rows lie in the domain; each has the value that y answers; a domain that misses the curve gives []; and queries answer the same after sampling as before.", "quantifier": "all histories of the source and the curve, all windows, steps and minimum steps", "why_tests_cant": "Scan.sample_points interleaves scans, cached points and stateful queries; tests sample one curve in one state.", "anchors": ["curvepy/scan.py:Scan.sample_points", "curvepy/curve.py:Curve.sample_points", "curvepy/accumulator.py:Accumulator.x_next"]}
{"id": "C63", "title": "Reading, extending and copying a trend line", "statement": "line_extended keeps the line's first point and ends on the line, at the least of the stretched end (of the line or of the crossing asked for), the greatest width and the crossing after the one asked for; len, indexing and iteration of a line agree; x and y undo each other; a copy answers and goes on as the original; the lines of a Trend at a position are exactly the valid lines whose search interval holds it; points that fit a line exactly are within tolerance.", "quantifier": "all lines, crossings, indices, widths and multiples; all points appended to a copy", "why_tests_cant": "The options of line_extended interact (six branches over unbounded crossings), and copies are only wrong after a later append.", "anchors": ["curvepy/trend.py:TrendLine.line_extended", "curvepy/trend.py:TrendLine.__copy__", "curvepy/trend.py:TrendLine.__getitem__", "curvepy/trend.py:Trend.lines", "curvepy/trend.py:TrendLine._is_line_fit_within_tolerance"]}
{"id": "C64", "title": "The crossings of a trend line are ordered passages", "statement": "The intersections of a trend line are in strict x order; each lies strictly between two underlying points on opposite sides of the line, and is on the line, or half-way between them when they pass before the line begins; hence an extension to a crossing reaches it and does not pass the next.", "quantifier": "all sequences of appended points and begun updates", "why_tests_cant": "Crossings are found scanning backwards from the last underlying point and inserted before those of the same scan, over updates that keep earlier ones.", "anchors": ["curvepy/trend.py:TrendLine.update_points_of_interest", "curvepy/trend.py:_line_intersection", "curvepy/trend.py:TrendLine.line_extended"]}
{"id": "C65", "title": "The golden family of moving averages", "statement": "harmonic_smas builds averages whose degrees are the base times 1, 2, 3, 4, 7, 11, ... (the Lucas numbers, stride of them skipped each time): each multiple is within one half of the power of the golden ratio, and the degrees strictly increase. centered_macs builds the same averages in the opposite order. A base of zero, a base of less than one point and a stride of -2 are refused.", "quantifier": "all bases (integers from 1 in points, positive reals in periods), counts and strides", "why_tests_cant": "The degrees come from rounding powers of an irrational number; that no power falls on the wrong side of a half for any exponent needs Binet's formula.", "anchors": ["curvepy/curve.py:Curve.harmonic_smas", "curvepy/curve.py:Curve.centered_macs", "curvepy/const.py:GOLD", "curvepy/sma.py:SMA.__init__"]}
{"id": "C66", "title": "Functions handed to the library are called with what they take", "statement": "A function given to map or accumulator_map is called with the value if it takes one argument, with the position and the value if it takes two, and is refused otherwise; an observer's callback gets the interval if it takes one. A call never fails to bind its arguments.", "quantifier": "all Python signatures: any number of positional, optional, variadic and keyword parameters, and built-in functions", "why_tests_cant": "The tests pass plain functions of one or two required arguments; the space of signatures is unbounded and the failures appear only at a later call.", "anchors": ["curvepy/curve.py:Curve.count_positional_args", "curvepy/util.py:count_positional_args", "curvepy/map.py:Map.__init__", "curvepy/accumulator_map.py:AccumulatorMap.__init__", "curvepy/curve.py:Curve.add_observer"]}
{"id": "C67", "title": "Sampling a moving average returns its values at the points", "statement": "Sampling an SMA returns rows in ascending order inside the requested window at the points where the average is defined, at the ends of a window and at the multiples of a given step; every row holds the value y answers there, and the sampling changes no later answer.", "quantifier": "all histories of queries, reads and source changes before the sampling; all degrees and periods, windows, steps and minimum steps; any number of equally spaced points", "why_tests_cant": "What the shared accumulator holds when sampling starts depends on every earlier query; tests sample fresh objects over a handful of points.", "anchors": ["curvepy/scan.py:Scan.sample_points", "curvepy/sma.py:SMA.y", "curvepy/sma.py:SMA.get_domain", "curvepy/accumulator.py:Accumulator.x_next", "curvepy/curve.py:Curve.sample_points"]}
{"id": "C68", "title": "Accumulating curves stacked on one another compute the composed values", "statement": "A chain of integrals, EMAs and trailing maps over a Points object answers, at every point, the value obtained by applying the layers' definitions one after another to the points, is linear between them and None outside, has the domain of the points and finds them by x_next, whatever curve of the chain was asked or changed before.", "quantifier": "all chains of any length and any mix of layers and parameters; all histories of making the curves, asking any of them for y, domain, x_next and x_previous, and changing the points with their notifications; any number of equally spaced points", "why_tests_cant": "Every layer keeps its own accumulator, filled and trimmed by the layer above and the notifications from below; the combinations of what each one holds are unbounded, and tests build one or two layers and ask once.", "anchors": ["curvepy/scan.py:Scan.y", "curvepy/scan.py:Scan.scan", "curvepy/scan.py:Scan.begin_scan_update", "curvepy/accumulator.py:Accumulator.x_next", "curvepy/accumulator.py:Accumulator.x_previous", "curvepy/accumulator.py:Accumulator._accumulate", "curvepy/accumulator.py:Accumulator.begin_update", "curvepy/integral.py:Integral._integral_scan", "curvepy/ema.py:EMA._ema_scan", "curvepy/accumulator_map.py:AccumulatorMap._accumulator_map_scan", "curvepy/curve.py:Curve.sample_points_from_x"]}
{"id": "C69", "title": "Every change of a derived curve is told to its observers", "statement": "In a network of maps, offsets, aggregates and piecewise curves, when a source changes and announces an interval that contains every changed x, then every curve of the network sends end notifications that contain every x at which its own value or domain changed; domains read through the caches are never stale.", "quantifier": "all finite networks in any observer order, all transforms, all sources, all histories of changes and domain readings, all x", "why_tests_cant": "Values and notifications travel separately; a missed x shows only in an observer that caches, for a particular shape of network and change. The tests check neither notification intervals of derived curves nor caches after changes.", "anchors": ["curvepy/curve.py:Curve.begin_update", "curvepy/curve.py:Curve.end_update", "curvepy/curve.py:Curve.domain", "curvepy/curve.py:Curve.add_observer", "curvepy/map.py:Map.y", "curvepy/offset.py:Offset.begin_offset_update", "curvepy/offset.py:Offset.y", "curvepy/aggregate.py:Aggregate.y", "curvepy/aggregate.py:Aggregate.get_domain", "curvepy/piecewise.py:Piecewise.y", "curvepy/constant.py:Constant.value"]}
{"id": "C70", "title": "Domains read from inside callbacks", "statement": "Callbacks of observers may read the domain of any curve while an update travels through the network. Whatever they read and whenever, the notifications stay the same, every curve ends idle, and no stale domain stays cached; begin callbacks see the old domains, and end callbacks see the new domain of a curve.", "quantifier": "all finite networks in any observer order, all histories of changes, all choices of what each callback reads", "why_tests_cant": "A reading in the middle of an update fills a cache from curves that have not been told yet; whether the cache survives depends on the order of the observers and the shape of the network. The tests read no domain from a callback.", "anchors": ["curvepy/curve.py:Curve.begin_update", "curvepy/curve.py:Curve.end_update", "curvepy/curve.py:Curve.domain", "curvepy/curve.py:Curve.set_needs_interval_update", "curvepy/aggregate.py:Aggregate.get_domain", "curvepy/map.py:Map.get_domain", "curvepy/offset.py:Offset.get_domain"]}
{"id": "C71", "title": "Updates and readings started by callbacks", "statement": "Callbacks may start complete updates of sources and read domains while another update travels through the network, and the callbacks of those updates may do the same. When everything has come to an end, every curve is idle, no stale domain stays cached, a reading made after a curve's last notification is its final domain, and every x at which a curve's value changed over the whole session lies in one of its end notifications. An update of a curve that is being updated keeps its points sorted.", "quantifier": "all finite networks in any observer order, all sessions, all callbacks (their actions may depend on the whole history), any depth of nesting", "why_tests_cant": "Begin and end calls of several updates interleave at every curve in orders that depend on the observers' order and on what the callbacks do; the number of interleavings is unbounded. The tests start no update from a callback.", "anchors": ["curvepy/curve.py:Curve.begin_update", "curvepy/curve.py:Curve.end_update", "curvepy/curve.py:Curve.domain", "curvepy/curve.py:Curve.set_needs_interval_update", "curvepy/points.py:Points.append_list"]}
{"id": "C72", "title": "Networks of accumulating curves, maps and aggregates", "statement": "In a network of EMA, integral and accumulator maps, maps and aggregates that read one another and share curves over one Points object (for example MACD), every curve's value is determined by the points alone: its transform of the values it reads, or the accumulated values with straight lines between them. It does not depend on which curves were asked before, where, or when they were made. A change of the points reaches every curve, raises nowhere, and leaves each idle with nothing out of date.", "quantifier": "all networks in which curves read earlier curves, all lists of equally spaced points, all histories of making curves, questions to any curve and operations on the points", "why_tests_cant": "Asking one curve moves the scans of all the curves below it, and a shared curve is moved through several paths; the combinations of questions, changes and shapes are unbounded. The tests combine no accumulating curve with an aggregate.", "anchors": ["curvepy/scan.py:Scan.begin_scan_update", "curvepy/accumulator.py:Accumulator.y", "curvepy/aggregate.py:Aggregate.y", "curvepy/map.py:Map.y", "curvepy/ema.py:EMA"]}
{"id": "C73", "title": "Callbacks that raise exceptions", "statement": "When a notification callback raises, the update stops where it is: the calls made are the first calls of the complete update, and the state is the one they lead to. The curve and those built on it do not stay wrong: later updates of the same intervals, during which nothing raises, succeed, leave every curve idle with its right domain and value, and announce every x at which a curve changed since the trouble began. Without them, a later update of something else is announced as usual.", "quantifier": "all finite networks in any observer order, all histories of begin and end calls, all callbacks (raising may depend on all the calls made), all repeating updates", "why_tests_cant": "The exception may come between any two calls of any update, several times over, and the half-done updates add up in every curve on the way. The tests have no callback that raises.", "anchors": ["curvepy/curve.py:Curve.begin_update", "curvepy/curve.py:Curve.end_update", "curvepy/curve.py:Curve.set_needs_interval_update", "curvepy/points.py:Points.append_list"]}
{"id": "C74", "title": "Asking a Trend for its lines", "statement": "A Trend scans the points of its source once each, in order, as far as the questions need. The answer of y(x) depends on the points only: whatever was asked before, and whether the points were there from the start or appended between the questions, it is the lines at x of one scan of all the points.", "quantifier": "all Points sources over rationals, all configurations with a finite polyfit, all histories of y, upper, lower and append", "why_tests_cant": "The scan goes further or less far with every question, and the lines reach back over points scanned long before; a wrong answer needs a certain order of questions and changes. The tests ask each Trend for one x.", "anchors": ["curvepy/trend.py:Trend", "curvepy/scan.py:Scan.scan", "curvepy/scan.py:Scan.begin_scan_update", "curvepy/trend.py:Trend.continue_scan", "curvepy/trend.py:Trend.begin_update"]}
{"id": "C75", "title": "Sampling the extremas", "statement": "sample_points of an Extremas curve returns its extremas: without a domain all of them and nothing else, in a window its ends and the extremas in it with the interpolated values, with a step the multiples of the step. Rows without a value are left out, a domain that misses the source gives no rows, and sampling does not change later answers.", "quantifier": "all Points sources over rationals, all references and deviations, all histories of queries, appends and harmless updates, all closed windows, minimum steps and steps", "why_tests_cant": "The rows depend on how far the curve was scanned, on extremas that are only confirmed by later points, and on the rounding of x / min_step; the test samples one fixed list of points once.", "anchors": ["curvepy/extremas.py:Extremas.sample_points", "curvepy/scan.py:Scan.sample_points", "curvepy/extremas.py:Extremas.x_next", "curvepy/curve.py:Curve.sample_points"]}
{"id": "C76", "title": "Constants, the shared zero, the empty curve and extensions by name", "statement": "A constant has at every x the value last written through its own handle, and announces its domain once when the value changes; Curve.const and Constant make new objects, and zero() is zero. The empty curve answers every question with nothing and never raises, and combining anything with it gives an empty curve. extension(name) makes the extension of that name with its arguments and refuses every other name.", "quantifier": "all programs that make, read and write constants through any handles, all values, domains and x; all samplings and steps of the empty curve; all names and keyword arguments", "why_tests_cant": "The zero object is shared by the whole interpreter, so what one user writes shows up in another; the tests make one constant and read it, and never ask for zero(), for an unknown extension or for arguments that a constructor does not take.", "anchors": ["curvepy/constant.py:Constant", "curvepy/constant.py:Constant.zero", "curvepy/curve.py:Curve.zero", "curvepy/curve.py:Curve.const", "curvepy/empty.py:Empty", "curvepy/curve.py:Curve.extension"]}
{"id": "C77", "title": "Rounding in double arithmetic", "statement": "With doubles, the value of a Points object between two points is within a few units in the last place of the exact linear interpolation and does not leave the range of the two neighbours by more than that, and never overflows, is NaN or raises. An EMA over whole-number positions follows its recurrence in doubles whatever queries and appends came before, and stays within a bound of the exact EMA that does not depend on the number of points. Between two equal values the value is the same, and an EMA stays in the range of its source.", "quantifier": "all doubles and all sizes of lists: increasing irregular positions whose gaps do not overflow, dyadic grids that fit the format, all finite values up to 2^1020, all weights between about 10 eps and 1, all histories of queries and appends", "why_tests_cant": "The tests compare a handful of small round numbers for which every operation is exact; a rounding error that depends on the index, on magnitudes far apart or on a long recurrence never shows up in them.", "anchors": ["curvepy/points.py:Points.y", "curvepy/points.py:Points.x_index", "curvepy/ema.py:EMA._ema_scan", "curvepy/accumulator.py:Accumulator._accumulate", "curvepy/scan.py:Scan.scan"]}
{"id": "C78", "title": "An upper trend line runs above its boundary points", "statement": "From ascending boundary points set_trend_with_boundary_points leaves a chain from the first to the last that turns one way only. The trend line is the segment of that chain with the least sum of squared distances, and no boundary point lies beyond the line by more than the tolerance for each point removed. Without a tolerance no boundary point lies beyond it.", "quantifier": "every ascending list of points, every absolute tolerance, every relative tolerance with positive values, upper and lower trends", "why_tests_cant": "The tests look at a few short lists; the chain is the result of nested removal loops over arbitrary lists, and the tests have no values below zero and no two tolerances at once.", "anchors": ["curvepy/trend.py:TrendLine.set_trend_with_boundary_points", "curvepy/trend.py:_is_strictly_convex_points", "curvepy/trend.py:_is_coincident_points"]}
{"id": "C79", "title": "The integral in double arithmetic", "statement": "With doubles, an integral over whole-number positions follows its recurrence exactly as the operations of Line.partial_integration are written, whatever queries and appends came before; it never overflows or raises for finite values, its distance from the exact sum of trapezia or rectangles is bounded, and with step interpolation of whole numbers it is exact. The integral of a source that is never negative is never negative.", "quantifier": "all whole-number grids whose positions stay below 2^35, all lengths, all finite values up to 2^800, the three interpolations of the integral, all constants, all histories of queries and appends", "why_tests_cant": "The tests integrate a few points near zero, where subtracting the two primitives is exact; the cancellation at unix-time positions, where the squares exceed 2^53, never shows up in them.", "anchors": ["curvepy/integral.py:Integral._integral_scan", "curvepy/integral.py:Integral.scanned_y", "curvepy/line.py:Line.set", "curvepy/line.py:Line.partial_integration", "curvepy/accumulator.py:Accumulator._accumulate"]}
{"id": "C80", "title": "Combinations of curves in double arithmetic", "statement": "With doubles, the sum, difference, product or quotient of any number of curves is within a relative bound of the exact result, that grows linearly with the number of operands, and never overflows, is NaN or raises while the exact results stay in range. Sums do not fall when operands rise. Minima, maxima, opposites and absolute values are exact. Two operands may be swapped without changing a bit; so may three, and adding then subtracting a curve gives back the other.", "quantifier": "all lists of curves whose domains have no nan, all x that are not nan, all finite values (for swapping: all doubles), up to 2^50 operands", "why_tests_cant": "The tests combine two curves at a few small round values, where every operation is exact; error growth with the number of operands, and the effect of their order, never shows up in them.", "anchors": ["curvepy/curve.py:Curve.add_many", "curvepy/curve.py:Curve.subtract_many", "curvepy/curve.py:Curve.multiply_many", "curvepy/curve.py:Curve.divide_many", "curvepy/curve.py:Curve.min", "curvepy/curve.py:Curve.max", "curvepy/aggregate.py:Aggregate.y", "curvepy/aggregate.py:Aggregate.get_domain"]}
{"id": "C81", "title": "Derived curves that are no longer used are released", "statement": "When the program drops its last reference to a derived curve, the curve can be finalised although its sources stay in use, and they stop calling it. Curves within reach never call back a finalised object. An autoremoving registration disappears with its object.", "quantifier": "every program that creates, derives, observes, binds, assigns and drops objects in any order, every schedule of finalisers that respects reachability, every order of sets", "why_tests_cant": "Nothing fails when an object stays in memory; only the number of callbacks grows with every derived curve ever made. It takes all reference chains to show that nothing can be released.", "anchors": ["curvepy/curve.py:Curve.add_observer", "curvepy/curve.py:Curve.remove_observer", "curvepy/map.py:Map.__init__", "curvepy/map.py:Map.__del__", "curvepy/aggregate.py:Aggregate.__init__", "curvepy/aggregate.py:Aggregate.__del__", "curvepy/scan.py:Scan.__init__", "curvepy/extension/extension.py:Extension.__del__"]}
{"id": "C82", "title": "Trailing windows in double arithmetic", "statement": "In binary64 an AccumulatorMap over the last n points of a Points object calls its function with exactly the last n values, the latest first; min and max are attained and exact; between the points the curve is near the line between the extremes.", "quantifier": "every regular grid of whole-number positions up to 2^35, every step above the minimum step, every list of finite doubles, every history of queries and appends, every query position", "why_tests_cant": "The window is found by stepping back from each point by the minimum step in doubles; whether a rounded step skips or repeats a point depends on the position, the spacing and the length.", "anchors": ["curvepy/accumulator_map.py:AccumulatorMap._accumulator_map_scan", "curvepy/curve.py:Curve.sample_points_from_x", "curvepy/scan.py:Scan.y", "curvepy/points.py:Points.x_previous"]}
{"id": "C83", "title": "Straight lines in double arithmetic", "statement": "In binary64 a Line through two points is within 7 eps of the rise plus eps of the value of the exact line at every position, wherever the points are; it has its reference value exactly, never moves against its slope, is exactly level when its points are, finds the position of a value for the slope it keeps, and integrates with an error in proportion to the square of the positions.", "quantifier": "all pairs of finite points up to 2^300 in size with positions at least 2^-300 apart, all query positions up to 2^300, all query values up to 2^300", "why_tests_cant": "The error depends on the rounding of four coordinates and a quotient; the bound has to hold for every combination of magnitudes, and monotonicity relates every pair of positions.", "anchors": ["curvepy/line.py:Line.y", "curvepy/line.py:Line.x", "curvepy/line.py:Line.set", "curvepy/line.py:Line.partial_integration"]}
{"id": "C84", "title": "Slopes in double arithmetic", "statement": "In binary64 the slope d_y of a sampled curve at a stored point is within 3 eps of the exact slope between the neighbouring values, has its sign, is the same number seen forward from the left point and backward from the right one, and is None where a value is missing or at the ends; the differential at a stored point is that slope.", "quantifier": "all evenly spaced whole positions up to 2^35, all histories that build the curve, all finite or missing values up to 2^1000, all minimum steps between 2^-17 and the spacing, both directions", "why_tests_cant": "The sign and the bound must hold for every pair of doubles and every spacing, and depend on the neighbour being found exactly through rounded fractional indices.", "anchors": ["curvepy/curve.py:Curve.d_y", "curvepy/curve.py:Curve.differential", "curvepy/points.py:Points.x_next", "curvepy/points.py:Points.x_previous"]}
{"id": "C85", "title": "Offset curves in double arithmetic", "statement": "In binary64 a sampled curve offset by a whole number has exactly the shifted domain, values, neighbours and slopes at its stored points; offset by any double, x_next and x_previous still visit each shifted point once, and inner values are the source's within 2^-19 of the point.", "quantifier": "all evenly spaced whole positions up to 2^35 (2^32 for fractional offsets), all histories that build the curve, all values, all whole offsets up to 2^52 or finite offsets up to 2^32, all minimum steps that leave room for the rounding", "why_tests_cant": "Whether adding and subtracting the offset returns to the same point depends on the rounding of every single position and offset; a test meets a few, and lucky ones.", "anchors": ["curvepy/offset.py:Offset.y", "curvepy/offset.py:Offset.d_y", "curvepy/offset.py:Offset.x_next", "curvepy/offset.py:Offset.x_previous", "curvepy/offset.py:Offset._offset_x", "curvepy/offset.py:Offset._unoffset_x"]}
