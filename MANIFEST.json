{
 "claims": [
  {
   "property": "C01",
   "status": "proved",
   "theorems": [
    "C01_points_y",
    "C01_points_y_linear",
    "C01_points_y_nonfinite"
   ],
   "note": "For every history of Points operations whose is_uniform flag is truthful (see C08 for when it is not), over exact rationals with inf/nan. The linear case assumes the stored values can be blended, which numbers always can."
  },
  {
   "property": "C02",
   "status": "proved",
   "theorems": [
    "C02_ends",
    "C02_points_domain"
   ],
   "note": "Over the same histories."
  },
  {
   "property": "C03",
   "status": "proved",
   "theorems": [
    "C03_points_x_next",
    "C03_points_x_previous"
   ],
   "note": "With an explicit finite min_step; limit is ignored by this class, as in the code."
  },
  {
   "property": "C04",
   "status": "proved",
   "theorems": [
    "C04_points_sample"
   ],
   "note": "For a step equal to the point spacing (or none) and min_step not larger than it."
  },
  {
   "property": "C05",
   "status": "proved",
   "theorems": [
    "C05_reset",
    "C05_reset_uniform",
    "C05_reset_all"
   ],
   "note": "uniform=False always succeeds; on uniform curves the only rejected resets are those that leave both a head and a tail."
  },
  {
   "property": "C06",
   "status": "proved",
   "theorems": [
    "C06_replace"
   ],
   "note": ""
  },
  {
   "property": "C07",
   "status": "proved",
   "theorems": [
    "C07_append_list",
    "C07_append_accepted",
    "C07_append_uniform_accepted",
    "C07_append_not_greater"
   ],
   "note": "For documented arguments (ascending lists)."
  },
  {
   "property": "C08",
   "status": "partial",
   "theorems": [
    "C08_uniform_partial",
    "C08_uniform_refuted",
    "C08_is_uniform_refuted",
    "C08_set_other_step_refuted"
   ],
   "note": "Proved when bulk arguments (constructor, append_list, set) are equally spaced; refuted in general: the check compares only the last x, so irregular lists are accepted and then misread, and uniform=False curves can flip to is_uniform."
  },
  {
   "property": "C09",
   "status": "partial",
   "theorems": [
    "C09_update_covers_partial",
    "C09_replace_keeps_other_points",
    "C09_replace_refuted"
   ],
   "note": "Proved for append, append_list, set and reset. Refuted for replace with linear interpolation: only the single x is announced although its neighbourhood changes; the other stored points are unaffected."
  },
  {
   "property": "C10",
   "status": "partial",
   "theorems": [
    "C10_rejected_silently_partial",
    "C10_offgrid_append_refuted",
    "C10_rejected_poisons_refuted"
   ],
   "note": "Proved for rejections before the update begins. Refuted for off-grid appends to a uniform curve (for all such curves) and the curve stays in the updating state: the next accepted append is neither announced nor readable."
  },
  {
   "property": "C11",
   "status": "partial",
   "theorems": [
    "C11_dyadic_grid",
    "C11_dyadic_grid_accepted",
    "C11_dyadic_append_accepted",
    "C11_dyadic_replace_accepted",
    "C11_irregular",
    "C11_last_point_raises_refuted",
    "C11_point_misread_refuted",
    "C11_decimal_grid_rejected_refuted"
   ],
   "note": "Proved for every history on grids (a + i h) 2^e that fit 53 bits, and for every irregular list of increasing doubles whose gaps do not overflow. Refuted for uniform grids in general: a uniform 0.1 grid of 30 points raises IndexError at its last point; a stored value is misread on a 4 point grid; 0, 0.1, 0.2, 0.3 is rejected."
  },
  {
   "property": "C12",
   "status": "proved",
   "theorems": [
    "C12_registry_refines",
    "C12_begin_calls",
    "C12_end_calls",
    "C12_at_most_once"
   ],
   "note": "For every registration/removal history, with callbacks that do not themselves change the registry (see C16)."
  },
  {
   "property": "C13",
   "status": "proved",
   "theorems": [
    "C13_round",
    "C13_empty_update"
   ],
   "note": "For every idle state and every set of passive observers."
  },
  {
   "property": "C14",
   "status": "proved",
   "theorems": [
    "C14_end_covers",
    "C14_end_iff_covered",
    "C14_all_ended_idle",
    "C14_one_end_notification_refuted"
   ],
   "note": "For every begin/end history of one curve. The _refuted theorem adds that ending a covering update first makes the end notification fire once more for the inner update."
  },
  {
   "property": "C15",
   "status": "proved",
   "theorems": [
    "C15_tokens_fresh",
    "C15_add",
    "C15_add_none",
    "C15_remove_token",
    "C15_remove_token_final",
    "C15_remove_obj",
    "C15_remove_obj_final"
   ],
   "note": "For every registration/removal history and every later history of notifications, including callbacks that register and remove observers."
  },
  {
   "property": "C16",
   "status": "partial",
   "theorems": [
    "C16_end_removals_behind",
    "C16_begin_never_raises",
    "C16_begin_removals_ahead",
    "C16_end_removal_raises_refuted",
    "C16_begin_removal_skips_refuted",
    "C16_begin_registration_loops_refuted"
   ],
   "note": "The code does not have the property. Proved: begin_update never raises under removals; end_update calls everybody if callbacks only remove observers already called; begin_update calls every remaining observer if callbacks only remove observers not yet called. The _refuted theorems show KeyError in end_update, a skipped observer in begin_update, and an endless begin_update when a begin callback registers a prioritised observer."
  },
  {
   "property": "C17",
   "status": "proved",
   "theorems": [
    "C17_network_settles",
    "C17_unshared_notified_once",
    "C17_maps_ok",
    "C17_shared_notified_once_refuted"
   ],
   "note": "For every finite acyclic network whose edges carry one of the code's interval maps (or any monotone map). Exactly-once holds for networks without shared paths, as stated; the _refuted theorem shows the diamond, where the end is notified twice and the first time too early."
  },
  {
   "property": "C18",
   "status": "proved",
   "theorems": [
    "C18_resolve_min_step",
    "C18_resolve_idempotent"
   ],
   "note": "Over exact numbers with infinities."
  },
  {
   "property": "C19",
   "status": "proved",
   "theorems": [
    "C19_x_next",
    "C19_x_previous",
    "C19_no_step"
   ],
   "note": "For every domain without NaN ends; with no step at all the code raises TypeError (C19_no_step)."
  },
  {
   "property": "C20",
   "status": "partial",
   "theorems": [
    "C20_sample_sound",
    "C20_base_advances",
    "C20_points_advances",
    "C20_step_grid",
    "C20_default_grid",
    "C20_empty",
    "C20_infinite",
    "C20_open_end_refuted",
    "C20_tie_refuted",
    "C20_point_refuted",
    "C20_index_refuted"
   ],
   "note": "Proved: order, values, inside the closed hull, first and last point for every curve whose stepping advances (base stepping and Points both do); the exact grids for step=h and for the default stepping. Refuted: a right-open end is returned, a start half way between two multiples of min_step raises, a one-point domain is returned twice, a left-open request between stored points raises IndexError."
  },
  {
   "property": "C21",
   "status": "partial",
   "theorems": [
    "C21_open_walk",
    "C21_closed_walk_partial",
    "C21_closed_refuted",
    "C21_default_step_refuted"
   ],
   "note": "Proved for open=True. open=False returns one point less and never the point at x (C21_closed_walk_partial says exactly what it returns); the default min_step raises on curves without one."
  },
  {
   "property": "C22",
   "status": "proved",
   "theorems": [
    "C22_quotient",
    "C22_none",
    "C22_points_forward",
    "C22_points_backward"
   ],
   "note": "The Points theorems cover knots for every interpolation and every x for linear interpolation, when the neighbour is at least min_step away."
  },
  {
   "property": "C23",
   "status": "partial",
   "theorems": [
    "C23_range",
    "C23_get_range",
    "C23_none_refuted"
   ],
   "note": "Proved for samples that are all numbers. Refuted for samples containing None."
  },
  {
   "property": "C24",
   "status": "partial",
   "theorems": [
    "C24_minimise_stops",
    "C24_maximise_stops",
    "C24_points_meet_hypotheses",
    "C24_climbs",
    "C24_descends",
    "C24_plateau_refuted",
    "C24_off_curve_refuted"
   ],
   "note": "Proved: whenever a finite position is returned it is a strict local optimum, or both slopes are None, or the next position has no value, or the iterations are used up. Along strictly rising (falling) positions up to a strict optimum the search arrives there and stops (C24_climbs, C24_descends). The property as stated is refuted only where the loop runs out of iterations on a flat bottom, or steps to None and raises."
  },
  {
   "property": "C25",
   "status": "partial",
   "theorems": [
    "C25_expressions",
    "C25_values",
    "C25_none",
    "C25_outside",
    "C25_commutative",
    "C25_associative",
    "C25_double_associativity_refuted",
    "C25_inverse_of_zero"
   ],
   "note": "Proved over exact rationals with inf/nan, for any number of operands and for arbitrary expression trees of + - * / min max neg abs inverse offset subset. With binary64 rounding associativity is refuted (0.1, 0.2, 0.3). 1/f raises ZeroDivisionError where f is 0, while f/g maps to infinity (C28)."
  },
  {
   "property": "C26",
   "status": "proved",
   "theorems": [
    "C26_intersection",
    "C26_hull"
   ],
   "note": "Set membership; the hull is contained in every interval covering all operands."
  },
  {
   "property": "C27",
   "status": "proved",
   "theorems": [
    "C27_x_next",
    "C27_x_previous"
   ],
   "note": "For any operands whose own stepping succeeds with non-nan results."
  },
  {
   "property": "C28",
   "status": "proved",
   "theorems": [
    "C28_total",
    "C28_next_divisor"
   ],
   "note": "A nan running result counts as negative (the code tests result >= 0)."
  },
  {
   "property": "C29",
   "status": "proved",
   "theorems": [
    "C29_min",
    "C29_max",
    "C29_first",
    "C29_outside"
   ],
   "note": "For non-nan operand values; both ignore_empty settings."
  },
  {
   "property": "C30",
   "status": "partial",
   "theorems": [
    "C30_values",
    "C30_domain",
    "C30_steps_partial",
    "C30_small_steps_refuted",
    "C30_composition",
    "C30_unary"
   ],
   "note": "Values, domain and composition are proved outright. Stepping equals the source's for steps of at least the map's minimum step; refuted below it: an explicit step smaller than MIN_STEP is coarsened."
  },
  {
   "property": "C31",
   "status": "partial",
   "theorems": [
    "C31_domain",
    "C31_values",
    "C31_steps_partial",
    "C31_limit_refuted",
    "C31_sampling_refuted",
    "C31_composition",
    "C31_updates"
   ],
   "note": "Values, domain, composition (including stepping with limits) and update intervals proved. Stepping is proved without a limit and refuted with one: the limit is passed to the source unshifted, so it is overstepped, and sampling a curve moved left loses its points."
  },
  {
   "property": "C32",
   "status": "partial",
   "theorems": [
    "C32_points",
    "C32_area",
    "C32_area_additive",
    "C32_notifies",
    "C32_same_graph_refuted",
    "C32_vertical_refuted",
    "C32_vertical",
    "C32_constant_notifies"
   ],
   "note": "Two-point lines, inversion and integration proved exactly; set() notifies iff the stored reference point or slope changed. Refuted: naming another point of the same line notifies although the graph is unchanged, and a vertical line evaluates to nan at its own points."
  },
  {
   "property": "C33",
   "status": "partial",
   "theorems": [
    "C33_owner",
    "C33_owner_unique",
    "C33_no_owner",
    "C33_next_only_end",
    "C33_previous_only_start",
    "C33_steps_refuted"
   ],
   "note": "Evaluation proved. Stepping refuted: for all inputs x_next can only return the end of the last piece and x_previous the start of the first."
  },
  {
   "property": "C34",
   "status": "partial",
   "theorems": [
    "C34_blend",
    "C34_beyond_refuted"
   ],
   "note": "Proved inside the domain of f, for both closing conventions and both versions of the stepping helper. Refuted beyond it: where f ends the blend is None although g is defined."
  },
  {
   "property": "C35",
   "status": "partial",
   "theorems": [
    "C35_values",
    "C35_local",
    "C35_after_update_refuted"
   ],
   "note": "Proved for the curve as constructed. Refuted after an update of the subset curve: Generic keeps its domain only in the cache that a finished update clears, so evaluation then raises AttributeError."
  },
  {
   "property": "C36",
   "status": "proved",
   "theorems": [
    "C36_integral",
    "C36_areas"
   ],
   "note": "Exact rational numbers (XQ). Any history of the source and of queries; source equally spaced by at least min_step; integral.py's const and all three interpolations."
  },
  {
   "property": "C37",
   "status": "proved",
   "theorems": [
    "C37_recurrence",
    "C37_within_so_far",
    "C37_within",
    "C37_constant"
   ],
   "note": "Any history; alpha or period weight, with or without an init curve. C37_within for 0<=alpha<=1."
  },
  {
   "property": "C38",
   "status": "proved",
   "theorems": [
    "C38_max",
    "C38_min",
    "C38_map"
   ],
   "note": "Any history; degree and period windows; C38_map for any function of the window."
  },
  {
   "property": "C39",
   "status": "partial",
   "theorems": [
    "C39_knots",
    "C39_knots_one",
    "C39_weights",
    "C39_mean_iff",
    "C39_knots_period",
    "C39_range",
    "C39_mean_refuted",
    "C39_linear_refuted",
    "C39_announced_refuted"
   ],
   "note": "As stated the property is false of the code: C39_mean_refuted (sma(3) of 0,0,3 is 3/4, not 1), C39_linear_refuted (weights swapped between points) and C39_announced_refuted. Proved instead, after any history: the trapezoid average at points (C39_knots, C39_weights, C39_knots_period), exactly when it is the mean (C39_mean_iff), its domain and range (C39_range)."
  },
  {
   "property": "C40",
   "status": "partial",
   "theorems": [
    "C40_integral",
    "C40_ema",
    "C40_trailing",
    "C40_sma",
    "C40_notifies",
    "C40_next",
    "C40_previous_scanned",
    "C40_previous_refuted",
    "C40_line_refuted"
   ],
   "note": "Proved for integral, EMA, trailing windows and SMA over equally spaced points after any history, with x_next, notifications and x_previous inside the scanned part. Refuted for x_previous beyond it (C40_previous_refuted) and for a Line source (C40_line_refuted)."
  },
  {
   "property": "C41",
   "status": "partial",
   "theorems": [
    "C41_constant",
    "C41_tangent",
    "C41_points_constant",
    "C41_points_tangent_start",
    "C41_points_tangent_end",
    "C41_domain_constant",
    "C41_domain_tangent",
    "C41_domain_refuted",
    "C41_next",
    "C41_previous",
    "C41_limit_refuted",
    "C41_inverse_refuted",
    "C41_notifies",
    "C41_unrecognised",
    "C41_raise_refuted",
    "C41_empty_refuted",
    "C41_regression_degree",
    "C41_regression_period",
    "C41_short_refuted",
    "C41_open_start",
    "C41_open_end"
   ],
   "note": "Values proved for constant and tangent extensions after any history of queries and recognised updates, including tangents by regression over Points and at open edges; domains proved for new extensions. Refuted: the domain after an update (C41_domain_refuted), steps with a limit (C41_limit_refuted), step inverses (C41_inverse_refuted), raise_on_empty (C41_raise_refuted), one-sided extension of an empty curve (C41_empty_refuted), a regression degree with too few points (C41_short_refuted). The sine extension is covered in C47."
  },
  {
   "property": "C42",
   "status": "partial",
   "theorems": [
    "C42_runs",
    "C42_unique",
    "C42_ascending",
    "C42_alternate",
    "C42_prefix",
    "C42_value",
    "C42_next",
    "C42_previous",
    "C42_pruned",
    "C42_restart",
    "C42_kept",
    "C42_repeat_refuted",
    "C42_append_refuted",
    "C42_ghost_refuted",
    "C42_zero_refuted",
    "C42_index_refuted",
    "C42_history",
    "C42_history_list",
    "C42_history_append",
    "C42_keeps_reference",
    "C42_keeps_tail",
    "C42_replace_refuted"
   ],
   "note": "Runs, uniqueness, ascent, alternation, deviation, extremeness and the interpolated y proved for a source scanned without updates. For histories of queries, appends and updates of source or reference that leave only extremas of the new points, y is still interpolated from the extremas of all points (C42_history) and the list repeats a beginning of them (C42_history_list); such updates: C42_history_append, C42_keeps_reference, C42_keeps_tail. What an update keeps and where the scan resumes: C42_pruned; updates that remove everything: C42_restart. Refuted: an update that keeps an extrema makes the code confirm it twice (C42_kept, C42_repeat_refuted, C42_append_refuted); a possible extrema outlives the replaced points (C42_ghost_refuted), and a confirmed one the replacement of the point that confirmed it (C42_replace_refuted); a zero reference raises (C42_zero_refuted); _i is off by one (C42_index_refuted)."
  },
  {
   "property": "C43",
   "status": "partial",
   "theorems": [
    "C43_insort",
    "C43_line_y",
    "C43_line_x",
    "C43_intersection",
    "C43_average",
    "C43_tolerance",
    "C43_tolerance_refuted",
    "C43_within",
    "C43_method_refuted",
    "C43_convex",
    "C43_convex_refuted",
    "C43_on_trend"
   ],
   "note": "Sorted insertion, line evaluation, intersection, midpoint and the tolerance functions characterised exactly over the rationals. Refuted: the tolerance band for negative values (C43_tolerance_refuted), the method _is_value_within_tolerance, which answers the opposite (C43_method_refuted), convexity with a relative tolerance below zero (C43_convex_refuted)."
  },
  {
   "property": "C44",
   "status": "partial",
   "theorems": [
    "C44_success",
    "C44_line",
    "C44_points",
    "C44_final",
    "C44_phase_partial",
    "C44_phase_refuted",
    "C44_total",
    "C44_recount_refuted",
    "C44_reprocess_refuted"
   ],
   "note": "Exclusion, the order of events behind a success, and finality proved for all histories and number types. The phase may fall from 3 to 2 (C44_phase_refuted); points at the last processed x are processed again (C44_recount_refuted, C44_reprocess_refuted). C44_points: which points a prediction is made from, and their order."
  },
  {
   "property": "C45",
   "status": "partial",
   "theorems": [
    "C45_scoped",
    "C45_terminates",
    "C45_literals",
    "C45_decorated",
    "C45_decorated_log",
    "C45_log_round_trip",
    "C45_chain",
    "C45_chain_curve",
    "C45_class_link",
    "C45_method_link",
    "C45_first_link",
    "C45_log_link",
    "C45_args_link",
    "C45_siblings",
    "C45_key_refuted",
    "C45_args_refuted",
    "C45_base_refuted",
    "C45_nested_refuted",
    "C45_log_list_refuted"
   ],
   "note": "Scoping of decorators, termination, conversion of the literals in sequences, decorators and chaining proved for every descriptor tree, world of curves and decorator list, including the split into positional and keyword arguments (C45_args_link). A literal that is the value of a key is never converted (C45_key_refuted), one in @args is converted twice (C45_args_refuted), other bases and nested or list-valued logarithms do not round-trip (C45_base_refuted, C45_nested_refuted, C45_log_list_refuted)."
  },
  {
   "property": "C46",
   "status": "proved",
   "theorems": [
    "C46_flatten",
    "C46_flatten_again",
    "C46_extend",
    "C46_untouched",
    "C46_nested",
    "C46_raises",
    "C46_none"
   ],
   "note": "Nested lists of any depth; dictionaries with string keys. Mappings nested in the arguments of flatten are leaves."
  },
  {
   "property": "C47",
   "status": "partial",
   "theorems": [
    "C47_period",
    "C47_frequency",
    "C47_phase_x",
    "C47_periodic",
    "C47_bounded",
    "C47_true_slope",
    "C47_slope_iff",
    "C47_slope_refuted",
    "C47_extension",
    "C47_extension_reported",
    "C47_created",
    "C47_zero_period"
   ],
   "note": "Over the real numbers of the standard library. y, period, frequency, phase and the tangency of the sine extension proved; d_y misses the factor of the chain rule (C47_slope_iff, C47_slope_refuted, C47_extension_reported)."
  },
  {
   "property": "C48",
   "status": "partial",
   "theorems": [
    "C48_components",
    "C48_outside",
    "C48_hl2",
    "C48_ends",
    "C48_domain",
    "C48_quote_domain",
    "C48_after_last",
    "C48_after_last_refuted",
    "C48_append",
    "C48_append_accepted",
    "C48_append_refuted",
    "C48_append_twice",
    "C48_sample",
    "C48_range_raises",
    "C48_range_refuted",
    "C48_announced",
    "C48_trailing_high",
    "C48_trailing_low",
    "C48_trailing_low_refuted",
    "C48_trailing_period_refuted"
   ],
   "note": "Components, hl2, first/last quote, domain, sampling, announcements, append against set, and trailing_high(n) proved for every history. trailing_low takes the greatest of the lows (C48_trailing_low, C48_trailing_low_refuted); a period also counts the candle covering its start (C48_trailing_period_refuted); append encodes twice (C48_append_twice, C48_append_refuted); the last candle ends at its timestamp although quote_domain goes on (C48_after_last_refuted); get_range raises (C48_range_raises, C48_range_refuted)."
  },
  {
   "property": "C49",
   "status": "partial",
   "theorems": [
    "C49_collinear",
    "C49_never_refuted"
   ],
   "note": "Exact result for collinear points proved; with min_points >= 4 the line is never valid (C49_never_refuted)."
  },
  {
   "property": "C50",
   "status": "proved",
   "theorems": [
    "C50_line",
    "C50_trend"
   ],
   "note": ""
  },
  {
   "property": "C51",
   "status": "partial",
   "theorems": [
    "C51_levels",
    "C51_fork",
    "C51_update_refuted",
    "C51_rescan_refuted"
   ],
   "note": "Alignment proved for histories of scans only. When a new line is begun is specified exactly (C51_fork). With an update the levels may differ and rescanning raises or differs (C51_update_refuted, C51_rescan_refuted)."
  },
  {
   "property": "C52",
   "status": "partial",
   "theorems": [
    "C52_distance_refuted",
    "C52_line"
   ],
   "note": "A valid line has the gaps of its own distance (C52_line), but Trend does not hand its distance to its lines (C52_distance_refuted)."
  },
  {
   "property": "C53",
   "status": "partial",
   "theorems": [
    "C53_total",
    "C53_apart",
    "C53_aligned",
    "C53_boundary_refuted"
   ],
   "note": "Termination, totality and the ends proved; removal of exactly the pruned points proved when none is coincident (C53_aligned), refuted otherwise (C53_boundary_refuted). The minimal distance holds for the chosen line (C53_apart)."
  },
  {
   "property": "C54",
   "status": "proved",
   "theorems": [
    "C54_exists",
    "C54_unique",
    "C54_fits",
    "C54_none",
    "C54_window"
   ],
   "note": "Over exact rationals. The solver numpy.linalg.lstsq is a parameter with the contract lstsq_ok (it answers with a least-squares line when two positions differ)."
  },
  {
   "property": "C55",
   "status": "partial",
   "theorems": [
    "C55_value",
    "C55_rises",
    "C55_falls",
    "C55_outside",
    "C55_between_refuted",
    "C55_spoilt_refuted",
    "C55_shifted_refuted"
   ],
   "note": "Values, bounds, rising and falling sources and the outside proved for every history of the source and of queries at its points. A query between two points raises (C55_between_refuted), makes later queries raise (C55_spoilt_refuted), or with uniform=False changes later values (C55_shifted_refuted)."
  },
  {
   "property": "C56",
   "status": "partial",
   "theorems": [
    "C56_removes_only",
    "C56_others",
    "C56_one",
    "C56_many",
    "C56_many_in_order",
    "C56_swapped_refuted",
    "C56_repeat_refuted",
    "C56_extremas_refuted",
    "C56_extension_refuted"
   ],
   "note": "Proved for every history: finalising removes nothing of others, Map, Offset and scans leave, aggregates and piecewise curves leave exactly the operands that stand at the same place in the operand list and in the set. Refuted for other set orders and repeated operands (C56_swapped_refuted, C56_repeat_refuted), for the source of Extremas (C56_extremas_refuted) and for extensions (C56_extension_refuted). When Python runs a finaliser is not modelled."
  },
  {
   "property": "C57",
   "status": "proved",
   "theorems": [
    "C57_log",
    "C57_log_order",
    "C57_log_raised",
    "C57_raised_log",
    "C57_pow_whole",
    "C57_pow_negative",
    "C57_pow_real",
    "C57_pow_chain",
    "C57_none",
    "C57_outside",
    "C57_log_raises"
   ],
   "note": "Values are real numbers of the standard library; rounding and overflow are not modelled. A negative value to a fractional power, a complex number in Python, is left open."
  },
  {
   "property": "C58",
   "status": "partial",
   "theorems": [
    "C58_next",
    "C58_previous",
    "C58_stuck_refuted",
    "C58_sampling_raises_refuted",
    "C58_next_between",
    "C58_previous_between"
   ],
   "note": "Proved for whole-number grids within 2^35 and every step from 2^-17 up to the spacing (the default 1e-5 included), whatever the history. Refuted for every whole position from 2^37 on, such as millisecond timestamps: the default step is lost to rounding, x_next returns the position it was given, and the sampling algorithm of the base class raises. From positions between the points at least the minimum step away the neighbours are found exactly (C58_next_between, C58_previous_between)."
  },
  {
   "property": "C59",
   "status": "partial",
   "theorems": [
    "C59_smma",
    "C59_weight",
    "C59_degree_zero",
    "C59_range",
    "C59_same",
    "C59_notifies",
    "C59_any_sma",
    "C59_mean_refuted"
   ],
   "note": "Everything but the last sentence is proved for every degree, every equally spaced data and every history. The first value is the SMA of the code, a trapezoid mean, so it is not the mean of the first n values: refuted with 0, 0, 3 (3/4 instead of 1). Whole degrees only: a fractional degree is cut for the SMA but not for the weight."
  },
  {
   "property": "C60",
   "status": "partial",
   "theorems": [
    "C60_at",
    "C60_between",
    "C60_curve",
    "C60_domain",
    "C60_next",
    "C60_previous",
    "C60_slope",
    "C60_zero",
    "C60_twice",
    "C60_announced_partial",
    "C60_fixed",
    "C60_any",
    "C60_translate_refuted",
    "C60_next_refuted",
    "C60_domain_refuted",
    "C60_announced_refuted"
   ],
   "note": "The first sentence is proved for every duration, source and x. Announcements are proved sufficient at boundaries and wherever both surrounding boundaries are outside the announced interval; elsewhere refuted (the line before a replaced value of a step curve changes unannounced). Refuted: translation off the boundaries, the domain when the source ends between boundaries (both ends are rounded up), x_next from more than a step before the domain. pyduration is represented by its interface."
  },
  {
   "property": "C61",
   "status": "partial",
   "theorems": [
    "C61_ao",
    "C61_ao_range",
    "C61_ao_infinite",
    "C61_ao_means_refuted",
    "C61_alligator"
   ],
   "note": "All but the last sentence is proved for equally spaced candles (uniform durations) no closer than the minimum steps, with the average that has half weight on its two outermost values; for the alligator the timestamps are consecutive boundaries of the duration. Refuted: the averages are not arithmetic means. Between candles ao has a value in the stated range but no formula is given. Durations that are not uniform are not covered."
  },
  {
   "property": "C62",
   "status": "partial",
   "theorems": [
    "C62_integral",
    "C62_ema",
    "C62_trailing",
    "C62_whole",
    "C62_along",
    "C62_points_stride",
    "C62_open_refuted",
    "C62_open_end_refuted",
    "C62_tie_refuted"
   ],
   "note": "Proved for closed windows and points further apart than the minimum step of the request (C62_along also covers points exactly that far apart when no rounding tie occurs, and minimum steps larger than the spacing). Refuted: a left-open window without a far enough point raises IndexError; a point at the open end of a window is returned although it is outside; points exactly the minimum step apart can raise. SMA: see C67; curves over Quotes are not covered."
  },
  {
   "property": "C63",
   "status": "partial",
   "theorems": [
    "C63_extend",
    "C63_extend_whole",
    "C63_index_refuted",
    "C63_sequence",
    "C63_round",
    "C63_copy",
    "C63_copy_append",
    "C63_copy_refuted",
    "C63_select",
    "C63_fit",
    "C63_fit_refuted"
   ],
   "note": "Proved except where the code breaks it: an index of -2 or less on a line without crossings raises IndexError (C63_index_refuted); __copy__ raises on a line without two points, and drops the tolerance lines so that is_point_on_trend and the next append of a valid copy raise (C63_copy_refuted); the method _is_line_fit_within_tolerance rejects exact fits (C63_fit_refuted). line_extended is stated for lines that are not vertical."
  },
  {
   "property": "C64",
   "status": "proved",
   "theorems": [
    "C64_crossings",
    "C64_reaches"
   ],
   "note": "For finite points in x order underneath, a finite search length and a fit with finite coefficients."
  },
  {
   "property": "C65",
   "status": "proved",
   "theorems": [
    "C65_degrees",
    "C65_periods",
    "C65_golden",
    "C65_increasing",
    "C65_centered",
    "C65_refuses"
   ],
   "note": "In real arithmetic: GOLD ** k is exact, where the code's float powers lose the nearest integer once GOLD ** k is past 2**52 or so."
  },
  {
   "property": "C66",
   "status": "partial",
   "theorems": [
    "C66_python",
    "C66_exact",
    "C66_binds",
    "C66_refused",
    "C66_observer",
    "C66_observer_safe",
    "C66_option_refuted",
    "C66_anything_refuted",
    "C66_builtin_refuted",
    "C66_observer_refuted"
   ],
   "note": "Proved for functions that take exactly one or exactly two arguments and callbacks that take exactly none or one; calls bind for all functions without required keywords. Refuted: an optional second parameter receives the value and the first one the position (C66_option_refuted); functions of *args are refused (C66_anything_refuted); built-in functions of two arguments are called with one (C66_builtin_refuted); a callback with an optional second parameter is called without the interval and raises (C66_observer_refuted)."
  },
  {
   "property": "C67",
   "status": "partial",
   "theorems": [
    "C67_degree",
    "C67_period",
    "C67_whole",
    "C67_one",
    "C67_one_refuted",
    "C67_next_refuted"
   ],
   "note": "Proved after any history for averages of two or more points and periods above the spacing, in any window and step, when neighbours are more than the minimum step apart; sampling without a domain also for one point. Refuted: an average of one point raises in a window that starts off the points and spans two of them (C67_one_refuted); x_next of an average skips points after a query near the end (C67_next_refuted)."
  },
  {
   "property": "C68",
   "status": "partial",
   "theorems": [
    "C68_values",
    "C68_integral",
    "C68_ema",
    "C68_map",
    "C68_length",
    "C68_domain",
    "C68_next",
    "C68_same",
    "C68_range",
    "C68_notifies",
    "C68_notified_values",
    "C68_one_layer",
    "C68_zero_refuted",
    "C68_sma_refuted"
   ],
   "note": "Proved for chains of any length of Integral, EMA and degree maps over equally spaced points, after any history; a layer that asks for x_previous over two or more accumulating layers needs that no point is at x = 0. Refuted without it: a point at x = 0 is taken for none and the value depends on what was asked before (C68_zero_refuted). Refuted for an EMA over an SMA: asking the SMA first makes the EMA raise (C68_sma_refuted). Period maps and SMA layers inside chains are not covered."
  },
  {
   "property": "C69",
   "status": "partial",
   "theorems": [
    "C69_told_partial",
    "C69_domains_told_partial",
    "C69_points_partial",
    "C69_caches",
    "C69_idle",
    "C69_unaffected",
    "C69_line",
    "C69_constant",
    "C69_none_outside",
    "C69_union_gap_refuted",
    "C69_differential_refuted",
    "C69_constant_refuted"
   ],
   "note": "Proved for networks of any size and shape with any transforms, for any source change that announces what it changes, and for every operation but replace on a Points source. Missing: offsets and intersections of unions, unions of curves with values outside their domains. Refuted there: the domain of a union grows over the gap between its operands, which nobody announces (C69_union_gap_refuted). Refuted for differential, whose slope at the last point changes outside the announced interval (C69_differential_refuted), and for a bounded Constant, which has values outside the domain that it announces (C69_constant_refuted)."
  },
  {
   "property": "C70",
   "status": "partial",
   "theorems": [
    "C70_domains",
    "C70_caches",
    "C70_change",
    "C70_mid_update_refuted"
   ],
   "note": "Proved for networks of any size and shape: the caches are right after every history, the notifications are unchanged, begin callbacks read the old domains, and end callbacks read the new domain of a curve once it has made its last notification. Refuted for end callbacks before that: f + f.map(g) is told of an appended point before f.map(g) is, and its callbacks then read the old domain (C70_mid_update_refuted)."
  },
  {
   "property": "C71",
   "status": "partial",
   "theorems": [
    "C71_caches",
    "C71_reads",
    "C71_told",
    "C71_reentrant_refuted"
   ],
   "note": "Proved for networks of any size and shape, sessions that come to an end, and callbacks that act in any way on the network's curves between the calls (before each dependant and after the last): idle curves, right caches, late readings, announcements of value changes, and of domain changes for nodes without unions (the limits of C69). Refuted for an append from inside the begin callback of an append to the same curve: append_list has already checked the order, and the points end unsorted (C71_reentrant_refuted). Callbacks that raise are C73. Missing: updates that callbacks begin but do not end."
  },
  {
   "property": "C72",
   "status": "partial",
   "theorems": [
    "C72_points",
    "C72_values",
    "C72_same",
    "C72_domain",
    "C72_next",
    "C72_next_point",
    "C72_previous",
    "C72_previous_first",
    "C72_notifies",
    "C72_notified_points",
    "C72_macd",
    "C72_grow",
    "C72_aggregate",
    "C72_map",
    "C72_pairs_refuted"
   ],
   "note": "Proved for any network over one Points object whose points are equally spaced by at least every minimum step, with transforms that do not raise and give numbers at the points, intersection or union aggregates, and no point at x = 0 where a curve that asks for x_previous has two accumulating curves over one another below (C68_zero_refuted). x_previous of a curve is the point before where the curve was asked for y there (C72_previous); before that it depends on what was asked (C40_previous_refuted). Refuted: beginnings and ends told to a curve pair up (C72_pairs_refuted). Missing: period-mode maps and SMA (C68_sma_refuted), several sources and offsets. Over sources with domains of their own an Aggregate or Map that keeps its domain answers like the model that computes it (C72_aggregate, C72_map)."
  },
  {
   "property": "C73",
   "status": "partial",
   "theorems": [
    "C73_prefix",
    "C73_source",
    "C73_repaired",
    "C73_values",
    "C73_silent",
    "C73_stale_refuted",
    "C73_append_refuted"
   ],
   "note": "Proved for networks of any size and shape: what a broken-off call did (C73_prefix, C73_source), the repair by updates that cover everything begun (C73_repaired; with domains and values C73_values, within the limits of C69), and that a source left in an update announces nothing until then (C73_silent). Refuted: after an end broken off at an idle source, a curve over it stays in the update, announces no later change elsewhere and keeps its old domain (C73_stale_refuted); after an append broken off in begin_update, the next append succeeds, tells nobody and is not in the domain (C73_append_refuted)."
  },
  {
   "property": "C74",
   "status": "partial",
   "theorems": [
    "C74_state",
    "C74_answer",
    "C74_outside",
    "C74_full",
    "C74_end",
    "C74_agree",
    "C74_total",
    "C74_again",
    "C74_append",
    "C74_sides",
    "C74_lines",
    "C74_all",
    "C74_order_refuted",
    "C74_before_refuted",
    "C74_replace_refuted"
   ],
   "note": "Proved over rationals for histories of y at any x, upper and lower at or after the first point, and appends: the state is that of one scan of a prefix (C74_state), what an answer is (C74_answer, C74_outside, C74_sides, C74_lines), answers with lines and answers at or after the last point are those of all the points (C74_full, C74_end, C74_agree), totality (C74_total), repetition (C74_again) and appends (C74_append). Refuted: an empty answer may depend on earlier questions (C74_order_refuted); upper(x) or lower(x) before the first point, and a replaced point, make points be scanned twice, which changes the lines (C74_before_refuted, C74_replace_refuted)."
  },
  {
   "property": "C75",
   "status": "partial",
   "theorems": [
    "C75_whole",
    "C75_window",
    "C75_steps",
    "C75_outside",
    "C75_tie_refuted",
    "C75_close_refuted"
   ],
   "note": "Proved over rationals for any history (C42): everything (C75_whole), closed windows inside the source (C75_window), steps (C75_steps) and domains outside it (C75_outside); later answers are the same. The stops (points before the first extrema, extremas, points after the last) are assumed more than the minimum step apart. Refuted without that: points exactly the minimum step apart can raise (C75_tie_refuted), and an extrema less than the minimum step after the start of a window is missed (C75_close_refuted)."
  },
  {
   "property": "C76",
   "status": "partial",
   "theorems": [
    "C76_values",
    "C76_notifies",
    "C76_fresh",
    "C76_zero",
    "C76_zero_refuted",
    "C76_inverse",
    "C76_domain_refuted",
    "C76_empty",
    "C76_absorbs",
    "C76_extension",
    "C76_extension_mode",
    "C76_extension_constant",
    "C76_extension_unknown"
   ],
   "note": "Proved over all programs: values, notifications, fresh objects, zero as long as nobody writes to it (C76_zero), the empty curve and the choice of extensions. Refuted: zero() and Curve.zero(3) are 5 after anybody has written 5 to the shared object (C76_zero_refuted); a constant with a domain has a value outside it and x(y) is outside it (C76_domain_refuted)."
  },
  {
   "property": "C77",
   "status": "partial",
   "theorems": [
    "C77_constants",
    "C77_irregular",
    "C77_grid",
    "C77_flat_refuted",
    "C77_ema_recurrence",
    "C77_ema",
    "C77_ema_between",
    "C77_ema_range_refuted"
   ],
   "note": "Proved in binary64 for all lists: the error and range bounds between points (C77_irregular, C77_grid), the EMA recurrence over all histories (C77_ema_recurrence), its uniform distance from the exact EMA (C77_ema) and its distance from the interpolated exact EMA between the points (C77_ema_between). Refuted: between two equal values the code returns a smaller one (C77_flat_refuted); an EMA of weight 1 can be below every value of its source (C77_ema_range_refuted). Missing: the errors of SMA (for the integral see C79, for combinations of curves C80)."
  },
  {
   "property": "C78",
   "status": "partial",
   "theorems": [
    "C78_supports",
    "C78_absolute",
    "C78_relative",
    "C78_negative_refuted",
    "C78_both_refuted"
   ],
   "note": "Proved for an absolute tolerance alone (C78_absolute, C78_supports) and for a relative one alone with values above EPSILON_ZERO (C78_relative), with min_point_distance 0, which is what Trend gives its lines (C52). Refuted for values below zero with a relative tolerance, which is the default (C78_negative_refuted), and for both tolerances at once (C78_both_refuted)."
  },
  {
   "property": "C79",
   "status": "partial",
   "theorems": [
    "C79_recurrence",
    "C79_error",
    "C79_between",
    "C79_steps_exact",
    "C79_sign_refuted",
    "C79_sma_refuted"
   ],
   "note": "Proved in binary64 for all lists: the recurrence with None values over all histories (C79_recurrence), the distance from the exact sums, which grows with the square of the positions (C79_error), also between the points (C79_between), and exactness of step interpolation for whole numbers whose products fit in 53 bits (C79_steps_exact). Refuted: between 0 and 1000, one second apart in unix time, the integral is -262144 (C79_sign_refuted); subtracting two primitives cancels, and the moving average over the two points is -262144 as well (C79_sma_refuted). Missing: irregular positions."
  },
  {
   "property": "C80",
   "status": "partial",
   "theorems": [
    "C80_domain",
    "C80_sum",
    "C80_sum_monotone",
    "C80_difference",
    "C80_product",
    "C80_quotient",
    "C80_extremes",
    "C80_commutes",
    "C80_three_refuted",
    "C80_cancel_refuted",
    "C80_inverses",
    "C80_gap",
    "C80_by_zero"
   ],
   "note": "Proved in binary64 for all lists of curves: domains (C80_domain), error bounds (C80_sum, C80_difference, C80_product, C80_quotient, C80_inverses), monotony (C80_sum_monotone), exact extremes (C80_extremes) and swapping of two operands to the bit (C80_commutes). Refuted: three operands give another sum in another order (C80_three_refuted) and f + g - g is not f (C80_cancel_refuted). Products and quotients are bounded only while their exact partial results stay between 2^-1000 and 2^1000. Operands without a value (C80_gap) and division by zero (C80_by_zero)."
  },
  {
   "property": "C81",
   "status": "partial",
   "theorems": [
    "C81_kept",
    "C81_together",
    "C81_never_finalised",
    "C81_callbacks",
    "C81_leak_refuted",
    "C81_finaliser_unseen",
    "C81_no_dangling",
    "C81_autoremove",
    "C81_autoremove_refuted"
   ],
   "note": "The release of unused curves is refuted: a registry keeps strong references to bound methods, so for every program a derived curve is within reach whenever one of its sources is (C81_kept, C81_together), is never finalised before them (C81_never_finalised), and the callbacks of a curve in use number at least all the curves ever derived from it (C81_callbacks, C81_leak_refuted). Autoremoval is proved (C81_autoremove), but cannot happen for bound methods of the object (C81_autoremove_refuted). Proved for all programs: no call reaches a finalised object (C81_no_dangling) and finalisers change no registry within reach (C81_finaliser_unseen)."
  },
  {
   "property": "C82",
   "status": "partial",
   "theorems": [
    "C82_window",
    "C82_max",
    "C82_min",
    "C82_between",
    "C82_nan_refuted"
   ],
   "note": "Proved in binary64 for all lists and histories: the window (C82_window), max and min (C82_max, C82_min), the values between points (C82_between). Refuted with values that are not numbers: the maximum depends on their place in the window (C82_nan_refuted). Missing: windows given by a period, irregular positions."
  },
  {
   "property": "C83",
   "status": "partial",
   "theorems": [
    "C83_near",
    "C83_first",
    "C83_monotone",
    "C83_level",
    "C83_position",
    "C83_vertical",
    "C83_vertical_refuted",
    "C83_second_refuted",
    "C83_position_refuted",
    "C83_area",
    "C83_area_refuted"
   ],
   "note": "Proved in binary64: distance to the exact line (C83_near), reference point (C83_first), monotonicity (C83_monotone), level lines (C83_level), positions of values (C83_position), integrals (C83_area). Refuted: the line from (0, 0) to (7, 29) is above 29 at 7 (C83_second_refuted); x does not invert y, 0.6 comes back as 1 (C83_position_refuted); the integral of y = x - 1600000000 over ten seconds is 0 instead of 50 (C83_area_refuted). Two points at one position (C83_vertical): infinite on both sides, but not a number at the position itself, for every such line (C83_vertical_refuted). Missing: overflow."
  },
  {
   "property": "C84",
   "status": "partial",
   "theorems": [
    "C84_slope",
    "C84_none",
    "C84_between",
    "C84_between_backward",
    "C84_differential",
    "C84_far_refuted",
    "C84_between_refuted",
    "C84_level_refuted"
   ],
   "note": "Proved in binary64 at the stored points: error and sign of the slope, the same number from both ends (C84_slope), missing values and ends (C84_none), the differential (C84_differential); between the points, at least the minimum step from the neighbour asked for, an error bound (C84_between, C84_between_backward). Refuted: from 2^37 on, as at millisecond timestamps, the forward slope is infinite whatever the values (C84_far_refuted); between the points a rising curve has a negative slope (C84_between_refuted) and a level curve is not level (C84_level_refuted). Missing: positions closer to a point than the minimum step."
  },
  {
   "property": "C85",
   "status": "partial",
   "theorems": [
    "C85_whole",
    "C85_visit",
    "C85_inner",
    "C85_start_refuted",
    "C85_gap_refuted"
   ],
   "note": "Proved in binary64: whole offsets are exact at the stored points (C85_whole); with any finite offset stepping visits each shifted point once (C85_visit) and inner values are read within 2^-19 of the stored point (C85_inner). Refuted: a curve from 4 offset by 0.1 has no value at the start of its own closed domain (C85_start_refuted), and a stored value next to a missing one is lost (C85_gap_refuted). Missing: offsets with a duration, irregular positions."
  }
 ]
}