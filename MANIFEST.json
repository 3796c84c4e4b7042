{
 "claims": [
  {
   "property": "C01",
   "status": "proved",
   "theorems": [
    "C01_sorted_unique",
    "C01_size_exact"
   ],
   "note": "All histories of legal calls on an object or nested views."
  },
  {
   "property": "C02",
   "status": "partial",
   "theorems": [
    "C02_add_exact",
    "C02_remove_exact",
    "C02_update_exact",
    "C02_remove_returns_partial",
    "C02_remove_returns_refuted"
   ],
   "note": "Effects exact for all inputs; the value returned by remove is exact only for index lists without repeats (refuted with repeats: intersect1d(assume_unique=True))."
  },
  {
   "property": "C03",
   "status": "proved",
   "theorems": [
    "C03_shift_right_exact",
    "C03_shift_left_exact",
    "C03_shift_roundtrip"
   ],
   "note": ""
  },
  {
   "property": "C04",
   "status": "proved",
   "theorems": [
    "C04_view_window",
    "C04_view_add_seen",
    "C04_view_remove_seen"
   ],
   "note": ""
  },
  {
   "property": "C05",
   "status": "proved",
   "theorems": [
    "C05_clear_exact",
    "C05_delete_exact",
    "C05_delete_root_exact",
    "C05_copy_same",
    "C05_copy_lookup"
   ],
   "note": ""
  },
  {
   "property": "C06",
   "status": "proved",
   "theorems": [
    "C06_properties_for",
    "C06_properties_dict_for"
   ],
   "note": ""
  },
  {
   "property": "C07",
   "status": "proved",
   "theorems": [
    "C07_lookup_pure"
   ],
   "note": "Lookups and item sets agree after any later history; only the order of items() may differ."
  },
  {
   "property": "C08",
   "status": "proved",
   "theorems": [
    "C08_priority_order"
   ],
   "note": ""
  },
  {
   "property": "C09",
   "status": "proved",
   "theorems": [
    "C09_notify_exact"
   ],
   "note": ""
  },
  {
   "property": "C10",
   "status": "proved",
   "theorems": [
    "C10_remove_exact",
    "C10_change_priority_exact"
   ],
   "note": ""
  },
  {
   "property": "C11",
   "status": "proved",
   "theorems": [
    "C11_snapshot"
   ],
   "note": ""
  },
  {
   "property": "C61",
   "status": "partial",
   "theorems": [
    "C61_rewrap_keeps_observers_refuted"
   ],
   "note": "False of the code: ObsAr.__new__ re-runs __init__, which replaces the observer list."
  },
  {
   "property": "C12",
   "status": "proved",
   "theorems": [
    "C12_fifo_within_limit"
   ],
   "note": ""
  },
  {
   "property": "C13",
   "status": "proved",
   "theorems": [
    "C13_transparent"
   ],
   "note": "Histories with object creation, death and address reuse, changes, failures, reset, disable, enable."
  },
  {
   "property": "C14",
   "status": "proved",
   "theorems": [
    "C14_hit_does_not_run",
    "C14_not_evicted_early"
   ],
   "note": ""
  },
  {
   "property": "C15",
   "status": "proved",
   "theorems": [
    "C15_keys_injective",
    "C15_inputs_exact"
   ],
   "note": ""
  },
  {
   "property": "C16",
   "status": "proved",
   "theorems": [
    "C16_registrations_exact",
    "C16_reset_releases"
   ],
   "note": ""
  },
  {
   "property": "C17",
   "status": "proved",
   "theorems": [
    "C17_failure_leaves_new_cacher"
   ],
   "note": ""
  },
  {
   "property": "C18",
   "status": "partial",
   "theorems": [
    "C18_keyword_order",
    "C18_keyword_names_refuted"
   ],
   "note": "Order does not matter; keyword names are not part of the identifier, so f(a=o) and f(b=o) share an entry."
  },
  {
   "property": "C19",
   "status": "partial",
   "theorems": [
    "C19_slice_write_refuted"
   ],
   "note": "False of the code: the notification carries the slice, whose id is unknown to the cacher."
  },
  {
   "property": "C20",
   "status": "partial",
   "theorems": [
    "C20_overlap_refuted"
   ],
   "note": "False of the code: an overlapping call can leave an entry outside the eviction order."
  },
  {
   "property": "C62",
   "status": "partial",
   "theorems": [
    "C62_negative_limit_refuted",
    "C62_zero_limit_refuted"
   ],
   "note": "False of the code for limit 0 and negative limits; C12/C13 prove it for positive limits."
  },
  {
   "property": "C63",
   "status": "partial",
   "theorems": [
    "C63_updates_off_refuted"
   ],
   "note": "False of the code."
  },
  {
   "property": "C21",
   "status": "proved",
   "theorems": [
    "C21_domains"
   ],
   "note": "Over the reals (no rounding)."
  },
  {
   "property": "C22",
   "status": "partial",
   "theorems": [
    "C22_logexp",
    "C22_neglogexp",
    "C22_logexp_gap_error",
    "C22_logexp_below",
    "C22_exponent",
    "C22_exponent_all",
    "C22_square",
    "C22_square_all",
    "C22_logistic",
    "C22_negexponent_refuted"
   ],
   "note": "Proved for every class except NegativeExponent, for which it is false: finv(f(x)) = -x."
  },
  {
   "property": "C23",
   "status": "partial",
   "theorems": [
    "C23_logexp",
    "C23_neglogexp",
    "C23_exponent",
    "C23_square",
    "C23_logistic",
    "C23_negexponent_refuted",
    "C23_zero_refuted"
   ],
   "note": "Proved for every class except NegativeExponent (f(finv(y)) = 1/y); false for the boundary value 0 that initialize accepts."
  },
  {
   "property": "C24",
   "status": "partial",
   "theorems": [
    "C24_logexp",
    "C24_logexp_gap_error",
    "C24_logexp_below_error",
    "C24_neglogexp",
    "C24_exponent",
    "C24_square",
    "C24_logistic",
    "C24_negexponent_refuted",
    "C24_exponent_outside_refuted",
    "C24_square_negative_refuted"
   ],
   "note": "Proved on the working range of every class except NegativeExponent (wrong sign)."
  },
  {
   "property": "C25",
   "status": "proved",
   "theorems": [
    "C25_initialize",
    "C25_logistic_midpoint"
   ],
   "note": ""
  },
  {
   "property": "C26",
   "status": "partial",
   "theorems": [
    "C26_logexp",
    "C26_exponent",
    "C26_logexp_grad",
    "C26_exponent_grad",
    "C26_negexponent_refuted",
    "C26_logexp_grad_above_refuted",
    "C26_default_refuted"
   ],
   "note": "Proved for Logexp and Exponent; false for NegativeExponent (nan), the classes with the default 0, and the gradient of Logexp above 36."
  },
  {
   "property": "C52",
   "status": "proved",
   "theorems": [
    "C52_monotone"
   ],
   "note": "Over the reals; gradf returns vectors of the right size, non-zero initial gradient, gtol >= 0."
  },
  {
   "property": "C53",
   "status": "proved",
   "theorems": [
    "C53_budget",
    "C53_status"
   ],
   "note": "Same hypotheses as C52."
  },
  {
   "property": "C54",
   "status": "partial",
   "theorems": [
    "C54_steps",
    "C54_scale_bound_refuted",
    "C54_zero_gradient_refuted"
   ],
   "note": "Everything but the upper bound of the scale, which lines 105-107 do not keep; a zero initial gradient divides by zero."
  },
  {
   "property": "C64",
   "status": "partial",
   "theorems": [
    "C64_evaluation_limit_refuted"
   ],
   "note": "False of the code: max_f_eval is never read."
  },
  {
   "property": "C28",
   "status": "proved",
   "theorems": [
    "C28_sizes_add_up",
    "C29_link_keeps_constraints",
    "C29_unlink_keeps_constraints"
   ],
   "note": "All histories of legal calls (PzSpec.legal)."
  },
  {
   "property": "C29",
   "status": "proved",
   "theorems": [
    "C29_link_keeps_constraints",
    "C29_unlink_keeps_constraints",
    "C29_same_everywhere",
    "C29_nothing_else"
   ],
   "note": ""
  },
  {
   "property": "C30",
   "status": "proved",
   "theorems": [
    "C30_constrain",
    "C30_unconstrain",
    "C30_fix",
    "C30_unfix",
    "C29_same_everywhere"
   ],
   "note": ""
  },
  {
   "property": "C31",
   "status": "partial",
   "theorems": [
    "C31_refused_partial",
    "C31_loop_refuted",
    "C31_self_refuted"
   ],
   "note": "Children and objects of the same hierarchy are refused; linking an object below itself is not and ends in endless recursion with a cyclic hierarchy."
  },
  {
   "property": "C32",
   "status": "proved",
   "theorems": [
    "C32_one_transformation"
   ],
   "note": ""
  },
  {
   "property": "C33",
   "status": "partial",
   "theorems": [
    "C33_fix_unfix_partial",
    "C33_fix_unfix_refuted",
    "C30_constrain"
   ],
   "note": "Elements fixed before fix() are free after unfix()."
  },
  {
   "property": "C34",
   "status": "partial",
   "theorems": [
    "C34_length_partial",
    "C39_get_partial",
    "C38_set",
    "C34_leaf_refuted"
   ],
   "note": "Holds at the top of a hierarchy; the getter of an object below hands out fixed elements."
  },
  {
   "property": "C35",
   "status": "partial",
   "theorems": [
    "C35_one_copy",
    "C35_write",
    "C35_constrain_values",
    "C35_apart_partial",
    "C35_apart_refuted"
   ],
   "note": "Sharing along the hierarchy proved; that other parameters are not written too holds for histories that do not refill an emptied node, and is false in general."
  },
  {
   "property": "C36",
   "status": "partial",
   "theorems": [
    "C36_link_values_partial",
    "C36_unlink_values_partial",
    "C36_deep_refuted",
    "C36_deep_unlink_refuted",
    "C36_refill_refuted"
   ],
   "note": "Proved up to the depth the code handles; false below it, whatever junk fresh memory contains."
  },
  {
   "property": "C37",
   "status": "partial",
   "theorems": [
    "C37_set_get",
    "C37_get_set_partial",
    "C34_length_partial",
    "C37_get_set_refuted"
   ],
   "note": "Set-then-get proved at the top; get-then-set needs an up-to-date copy and is false without."
  },
  {
   "property": "C38",
   "status": "proved",
   "theorems": [
    "C38_set"
   ],
   "note": ""
  },
  {
   "property": "C39",
   "status": "partial",
   "theorems": [
    "C39_get_partial",
    "C39_after_assign_partial",
    "C39_after_constrain_partial",
    "C39_updates_off_refuted",
    "C39_unconstrain_refuted"
   ],
   "note": "False after changes with updates off and after unconstrain."
  },
  {
   "property": "C40",
   "status": "proved",
   "theorems": [
    "C40_gradient"
   ],
   "note": "At the top of a hierarchy, as the optimizer uses it."
  },
  {
   "property": "C41",
   "status": "proved",
   "theorems": [
    "C41_indices"
   ],
   "note": ""
  },
  {
   "property": "C42",
   "status": "proved",
   "theorems": [
    "C42_assign_order"
   ],
   "note": ""
  },
  {
   "property": "C43",
   "status": "proved",
   "theorems": [
    "C43_trigger_order"
   ],
   "note": "Objects all of whose elements are fixed, and what is only reachable through them, are left out."
  },
  {
   "property": "C44",
   "status": "partial",
   "theorems": [
    "C44_off_partial",
    "C44_on",
    "C44_link_refuted"
   ],
   "note": "Proved for histories of value, constraint and update calls; an object linked in while updates are off is not silenced."
  },
  {
   "property": "C45",
   "status": "proved",
   "theorems": [
    "C45_traverse"
   ],
   "note": ""
  },
  {
   "property": "C46",
   "status": "partial",
   "theorems": [
    "C46_failed_link_refuted"
   ],
   "note": "False of the code: marks of the search stay set after a refused link."
  },
  {
   "property": "C60",
   "status": "partial",
   "theorems": [
    "C60_randomize_partial",
    "C60_switch_refuted"
   ],
   "note": "The switch of the object itself is kept; the others of its hierarchy get the same setting."
  },
  {
   "property": "C65",
   "status": "partial",
   "theorems": [
    "C65_any_length",
    "C65_length_refuted"
   ],
   "note": "False of the code: assignment to .flat recycles or cuts the vector; its effect is proved."
  },
  {
   "property": "C47",
   "status": "partial",
   "theorems": [
    "C47_identifier_partial",
    "C47_newline_refuted",
    "C47_translation",
    "C47_unchanged",
    "C47_idempotent",
    "C47_error"
   ],
   "note": "Everything but one case: a name ending in a newline is let through."
  },
  {
   "property": "C48",
   "status": "partial",
   "theorems": [
    "C48_differ",
    "C48_nested_refuted",
    "C48_only_conflicts",
    "C48_bystander_refuted",
    "C48_others_keep",
    "C48_earlier_keep",
    "C48_comes_to_an_end"
   ],
   "note": "Proved for calls on an object that nothing is above; linking into a part of a larger object leaves equal names, and a child without a conflict can be renamed when the new name of another is its own."
  },
  {
   "property": "C66",
   "status": "partial",
   "theorems": [
    "C66_sound",
    "C66_reached_partial",
    "C66_printable",
    "C66_shared_refuted",
    "C66_reserved_refuted",
    "C66_nested_refuted",
    "C66_bad_name_refuted"
   ],
   "note": "Attributes made for children are always right; a child is missing when its printing form is shared or taken, or when linked into a part of a larger object."
  },
  {
   "property": "C49",
   "status": "partial",
   "theorems": [
    "C49_tolerated_partial",
    "C49_raised",
    "C49_success",
    "C49_gradient_refuted"
   ],
   "note": "Evaluations that need gradients are tolerated only when the gradients can be had after the failure; otherwise the first failure raises."
  },
  {
   "property": "C50",
   "status": "partial",
   "theorems": [
    "C50_robust_partial",
    "C50_strict_partial",
    "C50_nothing",
    "C50_nan_refuted",
    "C50_shared_refuted",
    "C50_none_refuted",
    "C50_verbose_refuted"
   ],
   "note": "Proved when each run has its own Optimizer object and completed runs report numbers; nan, a shared Optimizer object, missing objectives and verbose output with nothing to optimize are refuted."
  },
  {
   "property": "C51",
   "status": "proved",
   "theorems": [
    "C51_first",
    "C51_error",
    "C51_full_name",
    "C51_case",
    "C51_documented_refuted"
   ],
   "note": "The documented names sgd and lbfgs do not name the optimizers documented."
  },
  {
   "property": "C59",
   "status": "partial",
   "theorems": [
    "C59_values_partial",
    "C59_verbose_values_partial",
    "C59_uninitialised",
    "C59_verbose_gradient_partial",
    "C59_gradient_partial",
    "C59_gradient_refuted",
    "C59_off_refuted",
    "C59_stale_refuted"
   ],
   "note": "Values are kept when the optimizer array is up to date; the gradient is left transformed in place without verbose, or with updates off."
  },
  {
   "property": "C67",
   "status": "proved",
   "theorems": [
    "C67_verdict",
    "C67_verbose_verdict"
   ],
   "note": "With updates on."
  },
  {
   "property": "C27",
   "status": "partial",
   "theorems": [
    "C27_one_per_class",
    "C27_arguments",
    "C27_one_per_bounds_partial",
    "C27_bounds_stay",
    "C27_different",
    "C27_copy_refuted",
    "C27_failed_refuted",
    "C27_rounding_refuted",
    "C27_subclass_refuted"
   ],
   "note": "Proved for classes without bounds over all histories; for Logistic without copies, inexact bounds, subclasses or kept failures, all of which are refuted."
  },
  {
   "property": "C55",
   "status": "partial",
   "theorems": [
    "C55_others",
    "C55_values_partial",
    "C55_effect",
    "C55_empty",
    "C55_rejected_positions",
    "C55_rejected_values",
    "C55_refuted"
   ],
   "note": "Other elements are never touched; a selected element gets its value when all elements of its parameter before it are selected too, otherwise another one, as proved exactly."
  },
  {
   "property": "C56",
   "status": "partial",
   "theorems": [
    "C56_set_partial",
    "C56_refuted",
    "C56_constrain",
    "C56_fix"
   ],
   "note": "Proved for constraints and fixes and for the first assignment; a second assignment through the same object runs no update."
  },
  {
   "property": "C57",
   "status": "partial",
   "theorems": [
    "C57_partial",
    "C57_values",
    "C57_order_refuted",
    "C57_zeros_refuted"
   ],
   "note": "Proved for values() and for selections with a nonzero value in each parameter concerned, in increasing order; other cases refuted."
  },
  {
   "property": "C68",
   "status": "proved",
   "theorems": [
    "C68_constrain",
    "C68_fix",
    "C68_unfix",
    "C68_unconstrain"
   ],
   "note": ""
  },
  {
   "property": "C69",
   "status": "proved",
   "theorems": [
    "C69_contents",
    "C57_values"
   ],
   "note": ""
  },
  {
   "property": "C58",
   "status": "partial",
   "theorems": [
    "C58_position",
    "C58_bijection",
    "C58_increasing",
    "C58_whole",
    "C58_indexed_partial",
    "C58_rejected",
    "C58_empty",
    "C58_separated_refuted"
   ],
   "note": "Proved for whole parameters and for all indices in which integers and integer arrays are side by side; separated ones give wrong positions, even outside the parameter."
  },
  {
   "property": "C70",
   "status": "partial",
   "theorems": [
    "C70_copy_partial",
    "C70_fixed_refuted",
    "C70_silent_refuted"
   ],
   "note": "Proved for all objects that have an array, except Params with fixed elements: their copies do not respect the fix, which is refuted."
  },
  {
   "property": "C71",
   "status": "proved",
   "theorems": [
    "C71_apart"
   ],
   "note": "For calls that link and unlink nothing; the state before the copy is reached by careful histories (see C35 on when Params share memory)."
  },
  {
   "property": "C72",
   "status": "proved",
   "theorems": [
    "C72_elsewhere"
   ],
   "note": "For calls that link and unlink nothing, after careful histories."
  },
  {
   "property": "C73",
   "status": "partial",
   "theorems": [
    "C73_names_partial",
    "C73_free_partial",
    "C73_distinct_partial",
    "C73_empty_refuted",
    "C73_part_refuted",
    "C73_equal_refuted"
   ],
   "note": "Proved without empty Params, and without the fixed elements for the top of a hierarchy; distinct when siblings differ in printing form. The other cases are refuted."
  },
  {
   "property": "C74",
   "status": "partial",
   "theorems": [
    "C74_set",
    "C74_other",
    "C74_read_partial",
    "C74_read_refuted"
   ],
   "note": "The first child with the printing form is set; reading gives the same child unless two children share the printing form, which is refuted. A single number is assigned."
  },
  {
   "property": "C75",
   "status": "partial",
   "theorems": [
    "C75_found",
    "C75_item",
    "C75_unnamed",
    "C75_part_refuted",
    "C75_after_error_refuted"
   ],
   "note": "Exact for names relative to the top of the hierarchy; below the top names are not relative to m, which is refuted; after a NameError the object is left unusable, refuted."
  },
  {
   "property": "C76",
   "status": "proved",
   "theorems": [
    "C76_set",
    "C76_updates",
    "C76_none"
   ],
   "note": "Names are relative to the top of the hierarchy (see C75). A single number is assigned. Some Param is among what is matched; several matches without any are a ValueError."
  },
  {
   "property": "C77",
   "status": "partial",
   "theorems": [
    "C77_domains",
    "C77_optimisation",
    "C77_library",
    "C77_library_strict",
    "C77_assign_refuted",
    "C77_link_refuted"
   ],
   "note": "Proved over all histories in which assigned values respect the domains and linking loses no values (C36 says when); both provisos are shown to be needed."
  },
  {
   "property": "C78",
   "status": "proved",
   "theorems": [
    "C78_up_to_date",
    "C78_start"
   ],
   "note": "Rules spelled out in ArrSpec.by_rules; C79 shows what happens without them."
  },
  {
   "property": "C79",
   "status": "partial",
   "theorems": [
    "C79_values_refuted",
    "C79_given_array_refuted",
    "C79_rebound_refuted",
    "C79_methods_refuted",
    "C79_slice_while_off_refuted",
    "C79_rewrapped_refuted",
    "C79_silence_refuted"
   ],
   "note": "False of the code in each of these ways; C78 proves what remains."
  },
  {
   "property": "C80",
   "status": "proved",
   "theorems": [
    "C80_assignment",
    "C80_operator",
    "C80_slice_operator",
    "C80_index_operator"
   ],
   "note": ""
  },
  {
   "property": "C81",
   "status": "partial",
   "theorems": [
    "C81_copy",
    "C81_index_array",
    "C81_index_array_refuted"
   ],
   "note": "Proved for copy(); what an index array selects shares the observers (refuted), not the memory (proved)."
  },
  {
   "property": "C82",
   "status": "proved",
   "theorems": [
    "C82_slice",
    "C82_whole",
    "C82_scattered"
   ],
   "note": ""
  },
  {
   "property": "C83",
   "status": "proved",
   "theorems": [
    "C83_transparent"
   ],
   "note": "For methods that depend on the contents of their non-ignored arguments, and cachers of bound methods only for methods that do not look at their object (C89). Bodies do not change objects."
  },
  {
   "property": "C84",
   "status": "proved",
   "theorems": [
    "C84_separate",
    "C84_untouched"
   ],
   "note": ""
  },
  {
   "property": "C85",
   "status": "partial",
   "theorems": [
    "C85_switch",
    "C85_off_executes",
    "C85_single_refuted",
    "C85_copy_refuted",
    "C85_deepcopy_refuted"
   ],
   "note": "Proved for programs that use the switches of objects; single cachers and copies do not keep their settings (refuted)."
  },
  {
   "property": "C86",
   "status": "proved",
   "theorems": [
    "C86_once",
    "C86_again"
   ],
   "note": ""
  },
  {
   "property": "C87",
   "status": "proved",
   "theorems": [
    "C87_same_call",
    "C87_wrong_call",
    "C87_binding"
   ],
   "note": ""
  },
  {
   "property": "C88",
   "status": "partial",
   "theorems": [
    "C88_force_refuted"
   ],
   "note": "False of the code."
  },
  {
   "property": "C89",
   "status": "partial",
   "theorems": [
    "C89_bound_refuted"
   ],
   "note": "False of the code."
  },
  {
   "property": "C90",
   "status": "partial",
   "theorems": [
    "C90_one_gradient",
    "C90_set_partial",
    "C90_edit",
    "C90_apart",
    "C90_set_refuted"
   ],
   "note": "x.gradient = v raises on a Parameterized without elements (refuted); everything else is proved."
  },
  {
   "property": "C91",
   "status": "partial",
   "theorems": [
    "C91_link_partial",
    "C91_unlink_partial",
    "C91_copy",
    "C91_deep_refuted"
   ],
   "note": "As for values (C36): false at depth 2 and below (refuted), proved above."
  },
  {
   "property": "C92",
   "status": "proved",
   "theorems": [
    "C92_take",
    "C92_stored"
   ],
   "note": ""
  },
  {
   "property": "C93",
   "status": "partial",
   "theorems": [
    "C93_again",
    "C93_at_all_times_refuted"
   ],
   "note": "False of the code for transformed parameters; what happens instead is proved."
  },
  {
   "property": "C94",
   "status": "partial",
   "theorems": [
    "C94_snapshot_partial",
    "C94_alias",
    "C94_snapshot_refuted"
   ],
   "note": "Proved if an element is fixed; otherwise the array of the model itself is handed out (refuted, and proved to stay the model's gradient)."
  },
  {
   "property": "C95",
   "status": "partial",
   "theorems": [
    "C95_refines_partial",
    "C95_refines_refuted"
   ],
   "note": "Proved if an element is fixed; otherwise refuted, because new and old gradient are one array (C96 says what then happens)."
  },
  {
   "property": "C96",
   "status": "proved",
   "theorems": [
    "C96_run"
   ],
   "note": "Includes that without fixed elements every step is one of gradient descent."
  },
  {
   "property": "C97",
   "status": "partial",
   "theorems": [
    "C97_optimize",
    "C97_restarts_partial",
    "C97_restarts_refuted"
   ],
   "note": "optimize: proved. optimize_restarts: proved if an element is fixed or every run improved, refuted otherwise."
  },
  {
   "property": "C98",
   "status": "partial",
   "theorems": [
    "C98_snapshot_partial",
    "C98_snapshot_refuted",
    "C98_last_set_partial",
    "C98_last_set_reads_partial",
    "C98_last_set_refuted"
   ],
   "note": "Proved if an element is fixed; otherwise refuted both ways."
  },
  {
   "property": "C99",
   "status": "proved",
   "theorems": [
    "C99_notify",
    "C99_trigger",
    "C99_constrain_twice",
    "C99_runs"
   ],
   "note": "Two qualifications are part of the theorems: constraining a Param calls everything twice, and an update from above leaves out what is registered at -inf with the parts."
  },
  {
   "property": "C100",
   "status": "partial",
   "theorems": [
    "C100_heard",
    "C100_assign_partial",
    "C100_fixed_refuted",
    "C100_bottom_refuted"
   ],
   "note": "Writing to a Parameterized as a whole changes fixed parts without telling them (refuted; proved for the others); observers at -inf are not told (refuted). Proved for all other calls."
  },
  {
   "property": "C101",
   "status": "partial",
   "theorems": [
    "C101_current",
    "C101_assign_partial",
    "C100_fixed_refuted"
   ],
   "note": "As C100: false when a Parameterized with a fixed part is written to as a whole."
  },
  {
   "property": "C102",
   "status": "partial",
   "theorems": [
    "C102_low",
    "C102_lags",
    "C102_display_refuted"
   ],
   "note": "False at the default priority, which the display uses: it is exactly one step behind. True at the update's own priority and below."
  },
  {
   "property": "C103",
   "status": "proved",
   "theorems": [
    "C103_kept",
    "C103_fresh",
    "C103_add",
    "C103_remove"
   ],
   "note": ""
  },
  {
   "property": "C104",
   "status": "partial",
   "theorems": [
    "C104_ends_partial",
    "C104_stays_partial",
    "C104_up_to_date",
    "C104_progress_partial",
    "C104_never",
    "C104_own_refuted"
   ],
   "note": "Ends if no method leads back to itself or if what is written is progress; never ends if methods surely lead back to themselves, as when an object sets its own parameters (refuted). That everything is up to date is proved whenever the call ends."
  },
  {
   "property": "C105",
   "status": "partial",
   "theorems": [
    "C105_weak_partial",
    "C105_unbound",
    "C105_freed",
    "C105_bound",
    "C105_dangling_refuted"
   ],
   "note": "Proved for callbacks that are not bound to the observer; false for bound methods, which paramz asks for: these keep the observer alive and called as long as the observable lives (proved)."
  },
  {
   "property": "C106",
   "status": "partial",
   "theorems": [
    "C106_recorded",
    "C106_climin",
    "C106_status_partial",
    "C106_raises",
    "C106_quiet",
    "C106_wrong_refuted",
    "C106_silent_refuted",
    "C106_crash_refuted"
   ],
   "note": "Point, objective and count: proved for all but the climin classes, which record the point only and cannot be printed. Status: proved for the codes the tables have; TNC reports an infeasible problem as a constant function, BFGS reports success by an empty status, and codes 6 and 7 of TNC and 3 of BFGS raise an IndexError (refuted)."
  },
  {
   "property": "C107",
   "status": "partial",
   "theorems": [
    "C107_limit",
    "C107_max_f_eval",
    "C107_tolerance_partial",
    "C107_default",
    "C107_factor",
    "C107_climin",
    "C107_dropped_refuted"
   ],
   "note": "Limit, and tolerances of the scipy and SCG classes: proved. False for max_f_eval, bfgs_factor outside lbfgsb, and all tolerances of the climin classes, which are dropped in silence."
  },
  {
   "property": "C108",
   "status": "proved",
   "theorems": [
    "C108_ends",
    "C108_steps"
   ],
   "note": "With a limit below the first number one step is made."
  },
  {
   "property": "C109",
   "status": "proved",
   "theorems": [
    "C109_runtime"
   ],
   "note": ""
  },
  {
   "property": "C110",
   "status": "partial",
   "theorems": [
    "C110_removed",
    "C110_count",
    "C110_left_refuted"
   ],
   "note": "False when the objective fails at the start: the display has registered itself but the with block is not entered, so nothing removes it."
  },
  {
   "property": "C111",
   "status": "partial",
   "theorems": [
    "C111_load_partial",
    "C111_apart",
    "C111_fixed_refuted"
   ],
   "note": "Proved when references beside parents and children go to parts that come earlier or to parts of the object itself; false for a Param of its own with fixed elements, whose fixes are not respected after loading."
  },
  {
   "property": "C112",
   "status": "partial",
   "theorems": [
    "C112_part",
    "C112_plain",
    "C112_cross_refuted",
    "C111_load_partial"
   ],
   "note": "False: no object with a parent can be loaded (proved for all of them), and a root need not be when one part refers to a later part. Proved for roots with tidy references (C111_load_partial)."
  },
  {
   "property": "C113",
   "status": "partial",
   "theorems": [
    "C113_gradient_partial",
    "C113_predict",
    "C113_refused",
    "C113_columns_refuted"
   ],
   "note": "Proved for targets with one column (for the Lasso at weights other than 0, where there is a derivative). False for targets with as many columns as the inputs: the model is made and its gradient is wrong."
  },
  {
   "property": "C114",
   "status": "partial",
   "theorems": [
    "C114_minimum",
    "C114_unique",
    "C114_supports",
    "C114_stationary_partial",
    "C114_lasso_refuted"
   ],
   "note": "A zero gradient means a minimum: proved for both penalties. A minimum means a zero gradient: proved for ridge regression, false for the Lasso."
  },
  {
   "property": "C115",
   "status": "partial",
   "theorems": [
    "C115_always_partial",
    "C113_gradient_partial",
    "C115_again_refuted",
    "C115_fixed_refuted",
    "C115_data_refuted"
   ],
   "note": "Proved for histories of updating calls; false after a trigger with all weights fixed, after a second parameters_changed, and after assignments to the data."
  },
  {
   "property": "C116",
   "status": "partial",
   "theorems": [
    "C116_take",
    "C116_fix",
    "C116_unfix",
    "C116_unconstrain",
    "C116_constrain_partial",
    "C116_assign_partial",
    "C116_fix_value_partial",
    "C116_updates",
    "C116_copy_refuted",
    "C116_nested_refuted"
   ],
   "note": "Proved for slices, and for fixing and releasing also for lists of positions. False for values through lists of positions (a part is then a copy, so constraining through it leaves values outside the domain) and for parts of parts (p[2:][0:1].fix() fixes element 0)."
  },
  {
   "property": "C117",
   "status": "partial",
   "theorems": [
    "C117_reads",
    "C117_stays_partial",
    "C117_link_refuted",
    "C117_updates_refuted"
   ],
   "note": "Proved for histories that do not link, unlink, initialise or copy and leave the switch of updates as it was; false after the Param was linked and after updates were switched."
  },
  {
   "property": "C118",
   "status": "partial",
   "theorems": [
    "C118_partial",
    "C118_refuted"
   ],
   "note": "Proved when all fixed elements of the Param are in the part; false both ways otherwise, since the fixed elements of the whole Param are counted."
  },
  {
   "property": "C119",
   "status": "proved",
   "theorems": [
    "C119_number",
    "C119_empty",
    "C116_take"
   ],
   "note": ""
  },
  {
   "property": "C120",
   "status": "partial",
   "theorems": [
    "C120_best_partial",
    "C120_failure",
    "C120_stopped",
    "C120_nothing",
    "C120_robust_refuted",
    "C120_shared_refuted",
    "C120_nothing_refuted"
   ],
   "note": "Proved when no run fails, no Optimizer instance was passed and there is something to optimize. False otherwise: robust is not respected, a passed instance is shared within chunks, and with nothing to optimize the call fails."
  },
  {
   "property": "C121",
   "status": "partial",
   "theorems": [
    "C121_concatenation",
    "C121_rejected",
    "C121_param",
    "C121_refused",
    "C121_none",
    "C121_name",
    "C121_name_refuted",
    "C121_item_partial",
    "C121_updates",
    "C121_node_refuted",
    "C121_uninitialised_refuted",
    "C121_compare"
   ],
   "note": "The effect on the values is proved for concatenations and for m[regexp] op= v when a Param is matched. False: c is None after c op= v; one matched Parameterized is a TypeError; on a model that is not initialised the values change and then an AttributeError is raised."
  },
  {
   "property": "C122",
   "status": "partial",
   "theorems": [
    "C122_table",
    "C122_empty",
    "C122_part_partial",
    "C122_part_empty",
    "C122_several",
    "C122_nested_refuted"
   ],
   "note": "Proved for Params, for several Params found by name and for parts of Params of one dimension. False for parts of parts, whose lines show the index and the constraints of other elements. An empty Param or part cannot be printed (ValueError, proved)."
  },
  {
   "property": "C123",
   "status": "partial",
   "theorems": [
    "C123_summary",
    "C123_empty"
   ],
   "note": "Proved when no Param below has a first axis of length 0; with one, nothing can be printed (IndexError, proved)."
  },
  {
   "property": "C124",
   "status": "partial",
   "theorems": [
    "C124_summary",
    "C124_table_partial",
    "C124_table_refuted",
    "C124_labels_refuted"
   ],
   "note": "Proved for the summary. False for the table of a Param, whose column of values is measured with another format than it is printed with (proved when the values fit), and for the labels of a Model."
  },
  {
   "property": "C125",
   "status": "proved",
   "theorems": [
    "C125_model"
   ],
   "note": ""
  },
  {
   "property": "C126",
   "status": "proved",
   "theorems": [
    "C126_method",
    "C126_vectors"
   ],
   "note": "Over the reals; the case of a zero gradient at the start is C54."
  },
  {
   "property": "C127",
   "status": "proved",
   "theorems": [
    "C127_new_name"
   ],
   "note": ""
  },
  {
   "property": "C128",
   "status": "proved",
   "theorems": [
    "C128_refused"
   ],
   "note": ""
  },
  {
   "property": "C129",
   "status": "proved",
   "theorems": [
    "C129_constrain",
    "C129_unconstrain",
    "C129_class",
    "C129_at_most",
    "C129_all",
    "C129_refused",
    "C129_copy",
    "C129_dump",
    "C129_kept",
    "C129_load",
    "C129_loaded_refuted"
   ],
   "note": "C129_unconstrain is for programs that load no model beside a model with the same bounds; C129_loaded_refuted shows that the condition is needed; C129_at_most and C129_class say what holds without it."
  },
  {
   "property": "C130",
   "status": "partial",
   "theorems": [
    "C130_removed",
    "C130_raises",
    "C130_at_most",
    "C130_done",
    "C130_priority",
    "C130_array",
    "C130_beside",
    "C130_array_refuted",
    "C130_empty_refuted",
    "C130_equal_refuted"
   ],
   "note": "Proved for observers that can be compared and equal only themselves; false for arrays and parameters as observers (refuted). What happens in general is proved exactly."
  },
  {
   "property": "C131",
   "status": "partial",
   "theorems": [
    "C131_made",
    "C131_in_step",
    "C131_observable",
    "C131_again",
    "C131_refuted"
   ],
   "note": "Proved for plain arrays, and that programs which make parameters from plain arrays only keep parameters and models in step. False for observable arrays and parameters (refuted); what then happens is proved exactly."
  },
  {
   "property": "C132",
   "status": "proved",
   "theorems": [
    "C132_link",
    "C132_unlink",
    "C132_agree",
    "C132_add"
   ],
   "note": "For hierarchies of one level; several levels are covered for the constraints (C29, C30)."
  },
  {
   "property": "C133",
   "status": "partial",
   "theorems": [
    "C133_when",
    "C133_lacks_refuted",
    "C133_more_refuted"
   ],
   "note": "When it succeeds is proved exactly; that a failure changes nothing is false (refuted in both ways)."
  },
  {
   "property": "C134",
   "status": "partial",
   "theorems": [
    "C134_attributes_partial",
    "C134_refuted"
   ],
   "note": "Proved for all names but that of the new index operation; for that name it is false (refuted), and what then happens is proved for all objects."
  },
  {
   "property": "C135",
   "status": "partial",
   "theorems": [
    "C135_off",
    "C135_stays",
    "C135_on",
    "C135_refuted"
   ],
   "note": "What the switches reach is proved exactly, for all programs; that it is everything is false after copying (refuted)."
  },
  {
   "property": "C136",
   "status": "partial",
   "theorems": [
    "C136_copy_partial",
    "C136_values_partial",
    "C136_data_refuted",
    "C136_switch_refuted"
   ],
   "note": "What a copy is, and that its Cachers give what the methods of the original give, is proved; that they compute with the copy and obey its switch is false (refuted)."
  },
  {
   "property": "C137",
   "status": "partial",
   "theorems": [
    "C137_pickle_partial",
    "C137_refuted"
   ],
   "note": "False of the code if there are Cachers (refuted); exactly when it fails is proved."
  },
  {
   "property": "C138",
   "status": "partial",
   "theorems": [
    "C138_when",
    "C138_content_partial",
    "C138_restore_partial",
    "C138_refuted"
   ],
   "note": "Proved for all hierarchies whose flattened names are different; when they collide saving fails (refuted; exactly when is proved)."
  },
  {
   "property": "C139",
   "status": "partial",
   "theorems": [
    "C139_content_partial",
    "C139_live_partial",
    "C139_own_partial",
    "C139_param",
    "C139_param_refuted",
    "C139_emptied_refuted"
   ],
   "note": "Proved for every initialised Parameterized with elements; a Param gives None or raises, and an object that lost its last parameter gives its old values (refuted)."
  },
  {
   "property": "C140",
   "status": "partial",
   "theorems": [
    "C140_unread_partial",
    "C140_stale_refuted",
    "C140_round_refuted"
   ],
   "note": "Proved for objects that keep no mask from an earlier reading; false after a reading and a further fix, and for Params (refuted)."
  },
  {
   "property": "C141",
   "status": "partial",
   "theorems": [
    "C141_summary",
    "C141_names_partial",
    "C141_param",
    "C141_model",
    "C141_names_refuted"
   ],
   "note": "The contents are proved; the names of the table of a Parameterized are those printed only if they need no adjustment (refuted otherwise)."
  },
  {
   "property": "C142",
   "status": "partial",
   "theorems": [
    "C142_summary_partial",
    "C142_model_partial",
    "C142_param",
    "C142_param_refuted",
    "C142_escape_refuted"
   ],
   "note": "Proved for Parameterized and Model if constraints and numbers have no markup characters; nothing is escaped, and the table of a Param is never closed (refuted)."
  }
 ]
}