{
 "claims": [
  {
   "property": "C01",
   "status": "proved",
   "theorems": [
    "C01_bid_identifiers"
   ],
   "note": ""
  },
  {
   "property": "C02",
   "status": "proved",
   "theorems": [
    "C02_transaction_log"
   ],
   "note": ""
  },
  {
   "property": "C03",
   "status": "proved",
   "theorems": [
    "C03_demand_curve",
    "C03_demand_curve_only_buyers"
   ],
   "note": ""
  },
  {
   "property": "C04",
   "status": "proved",
   "theorems": [
    "C04_supply_curve",
    "C04_supply_curve_only_sellers"
   ],
   "note": ""
  },
  {
   "property": "C05",
   "status": "proved",
   "theorems": [
    "C05_demand_shape",
    "C05_supply_shape"
   ],
   "note": ""
  },
  {
   "property": "C06",
   "status": "proved",
   "theorems": [
    "C06_intersection",
    "C06_crossing_unique",
    "C06_bid_curves_well_formed"
   ],
   "note": ""
  },
  {
   "property": "C07",
   "status": "proved",
   "theorems": [
    "C07_ordinate",
    "C07_common_end_refuted",
    "C07_ordinate_exact",
    "C07_ordinate_no_crossing"
   ],
   "note": "All positive parts proved; the last clause of the property (clearing can fail at a common breakpoint) is the theorem with suffix _refuted."
  },
  {
   "property": "C08",
   "status": "proved",
   "theorems": [
    "C08_huang_conserves",
    "C08_quantity_reported_refuted"
   ],
   "note": "Conservation proved; equality with extra[\"quantity_traded\"] holds whenever a transaction exists, and is refuted (C08_quantity_reported_refuted) when nobody trades."
  },
  {
   "property": "C09",
   "status": "proved",
   "theorems": [
    "C09_huang_feasible"
   ],
   "note": ""
  },
  {
   "property": "C10",
   "status": "proved",
   "theorems": [
    "C10_huang_rational"
   ],
   "note": ""
  },
  {
   "property": "C11",
   "status": "proved",
   "theorems": [
    "C11_huang_traders"
   ],
   "note": ""
  },
  {
   "property": "C12",
   "status": "proved",
   "theorems": [
    "C12_update_quantity"
   ],
   "note": ""
  },
  {
   "property": "C13",
   "status": "proved",
   "theorems": [
    "C13_huang_total"
   ],
   "note": ""
  },
  {
   "property": "C14",
   "status": "proved",
   "theorems": [
    "C14_merge_partition",
    "C14_power",
    "C14_rounding"
   ],
   "note": ""
  },
  {
   "property": "C15",
   "status": "proved",
   "theorems": [
    "C15_split_proportional"
   ],
   "note": ""
  },
  {
   "property": "C16",
   "status": "proved",
   "theorems": [
    "C16_market_run_huang"
   ],
   "note": ""
  },
  {
   "property": "C17",
   "status": "partial",
   "theorems": [
    "C17_split_fees_refuted",
    "C17_split_returns_iff",
    "C17_fees_unchanged",
    "C17_split_fees_partial"
   ],
   "note": "False as stated: the code raises for every merged group of two or more bids (C17_split_fees_refuted). C17_split_returns_iff says exactly when the call returns; the part that holds is C17_split_fees_partial."
  },
  {
   "property": "C18",
   "status": "proved",
   "theorems": [
    "C18_merged_users",
    "C18_generator",
    "C18_interleaved_generators_refuted"
   ],
   "note": "Fresh and distinct ids proved; the sharing of the counter between generators is shown by the theorem with suffix _refuted."
  },
  {
   "property": "C19",
   "status": "proved",
   "theorems": [
    "C19_halves",
    "C19_price_from_other_half"
   ],
   "note": ""
  },
  {
   "property": "C20",
   "status": "proved",
   "theorems": [
    "C20_muda_safe"
   ],
   "note": ""
  },
  {
   "property": "C21",
   "status": "proved",
   "theorems": [
    "C21_volume",
    "C21_priority"
   ],
   "note": ""
  },
  {
   "property": "C22",
   "status": "proved",
   "theorems": [
    "C22_fees_are_externalities",
    "C22_fee_unique"
   ],
   "note": ""
  },
  {
   "property": "C23",
   "status": "proved",
   "theorems": [
    "C23_fee_bounds"
   ],
   "note": ""
  },
  {
   "property": "C24",
   "status": "proved",
   "theorems": [
    "C24_truthful"
   ],
   "note": "Also covers reporting smaller quantities. User ids are assumed nonnegative, both runs must not raise."
  },
  {
   "property": "C25",
   "status": "proved",
   "theorems": [
    "C25_not_implemented",
    "C25_errors",
    "C25_total"
   ],
   "note": ""
  },
  {
   "property": "C26",
   "status": "partial",
   "theorems": [
    "C26_fee_exact",
    "C26_total_fee_refuted",
    "C26_total_fee_partial"
   ],
   "note": "False as stated (C26_total_fee_refuted: the fee of the right half replaces the fee of the left half). C26_total_fee_partial proves the sum for every user not charged in both halves; C26_fee_exact says exactly what is reported: the fee of the right half if charged there, otherwise that of the left half."
  },
  {
   "property": "C27",
   "status": "partial",
   "theorems": [
    "C27_finite_iff",
    "C27_huang_iff",
    "C27_clearing_price_refuted",
    "C27_price_exists_partial",
    "C27_price_or_infinite",
    "C27_price_clears"
   ],
   "note": "False as stated (C27_clearing_price_refuted: infinite price when the curves touch). Finite when no buyer and seller name the same price and no seller asks 0; a finite price always lies between a seller and a buyer and maximises the volume. C27_finite_iff and C27_huang_iff say exactly when the price is finite."
  },
  {
   "property": "C28",
   "status": "proved",
   "theorems": [
    "C28_p2p_terminates",
    "C28_p2p_labels",
    "C28_p2p_matching"
   ],
   "note": ""
  },
  {
   "property": "C29",
   "status": "proved",
   "theorems": [
    "C29_p2p_conserves"
   ],
   "note": ""
  },
  {
   "property": "C30",
   "status": "proved",
   "theorems": [
    "C30_p2p_price",
    "C30_p2p_rational"
   ],
   "note": ""
  },
  {
   "property": "C31",
   "status": "proved",
   "theorems": [
    "C31_p2p_no_trade_left"
   ],
   "note": ""
  },
  {
   "property": "C32",
   "status": "proved",
   "theorems": [
    "C32_p2p_half",
    "C32_p2p_half_optimum",
    "C32_p2p_half_percentage"
   ],
   "note": ""
  },
  {
   "property": "C33",
   "status": "proved",
   "theorems": [
    "C33_p2p_active_exact",
    "C33_huang_inactive",
    "C33_muda_inactive",
    "C33_p2p_active",
    "C33_p2p_active_zero_refuted"
   ],
   "note": "For p2p with positive quantities and for huang and muda (never active); C33_p2p_active_exact covers zero quantities, where the plain statement is refuted."
  },
  {
   "property": "C34",
   "status": "partial",
   "theorems": [
    "C34_profits_meaning",
    "C34_accounting_refuted",
    "C34_accounting_partial"
   ],
   "note": "False as stated (C34_accounting_refuted: fees are added to the market maker but not taken from the players). C34_accounting_partial: the profits sum to surplus plus fees; equality without fees."
  },
  {
   "property": "C35",
   "status": "proved",
   "theorems": [
    "C35_nobody_loses",
    "C35_p2p_market_zero"
   ],
   "note": "For every sequence of calls with positive quantities, nonnegative prices and user ids, and p2p weights in [0,1]."
  },
  {
   "property": "C36",
   "status": "proved",
   "theorems": [
    "C36_traded_any",
    "C36_traded_meaning",
    "C36_traded_bounds"
   ],
   "note": "For every such sequence of calls and every solver that returns an optimum when there is one; Solver.v proves such a solver exists."
  },
  {
   "property": "C37",
   "status": "proved",
   "theorems": [
    "C37_welfare_meaning",
    "C37_welfare_bounds"
   ],
   "note": "As C36."
  },
  {
   "property": "C38",
   "status": "proved",
   "theorems": [
    "C38_programs_have_optimum",
    "C38_maximum_volume",
    "C38_maximum_welfare"
   ],
   "note": ""
  },
  {
   "property": "C39",
   "status": "partial",
   "theorems": [
    "C39_statistics_dictionary",
    "C39_optimum_dictionary",
    "C39_welfare_ratio_refuted",
    "C39_dictionary_refuted",
    "C39_welfare_ignores_prices",
    "C39_dictionary_partial",
    "C39_statistics_dictionary_partial"
   ],
   "note": "False as stated (C39_welfare_ratio_refuted, C39_dictionary_refuted). The _partial theorems describe exactly what happens to the dictionary; profits do use the reservation prices (C34_profits_meaning)."
  },
  {
   "property": "C40",
   "status": "proved",
   "theorems": [
    "C40_dispatch",
    "C40_unknown",
    "C40_run",
    "C40_history",
    "C40_one_sided"
   ],
   "note": ""
  },
  {
   "property": "C41",
   "status": "proved",
   "theorems": [
    "C41_grid",
    "C41_generate"
   ],
   "note": ""
  },
  {
   "property": "C42",
   "status": "proved",
   "theorems": [
    "C42_read_only",
    "C42_complete",
    "C42_excluded"
   ],
   "note": ""
  },
  {
   "property": "C43",
   "status": "partial",
   "theorems": [
    "C43_marginal_unique",
    "C43_finite_order",
    "C43_price_values",
    "C43_order_refuted",
    "C43_order_partial",
    "C43_muda_sort_partial"
   ],
   "note": "False as stated (C43_order_refuted); proved when the prices of each side are distinct. With ties: the marginal prices and the quantity are unique (C43_marginal_unique), whether there is a price does not change (C43_finite_order), and the price is one of at most two values (C43_price_values)."
  },
  {
   "property": "C44",
   "status": "proved",
   "theorems": [
    "C44_value",
    "C44_negative"
   ],
   "note": ""
  },
  {
   "property": "C45",
   "status": "proved",
   "theorems": [
    "C45_price_setters",
    "C45_price_setters_found",
    "C45_runs_iff_price",
    "C45_runs"
   ],
   "note": ""
  },
  {
   "property": "C46",
   "status": "proved",
   "theorems": [
    "C46_rationing",
    "C46_market_outcome"
   ],
   "note": ""
  },
  {
   "property": "C47",
   "status": "partial",
   "theorems": [
    "C47_truthful_in_price_partial",
    "C47_market_truthful_in_price_partial",
    "C47_two_bids_refuted",
    "C47_quantity_refuted",
    "C47_market_tie_refuted"
   ],
   "note": "False as stated: a user with two bids (C47_two_bids_refuted), a quantity misreport (C47_quantity_refuted) and a tie in the market (C47_market_tie_refuted) can gain. Proved for price misreports of a user with one bid when prices are distinct, positive asks; for Market.run also prices with at most five decimals."
  },
  {
   "property": "C48",
   "status": "proved",
   "theorems": [
    "C48_every_run_is_a_schedule",
    "C48_every_schedule_is_a_run"
   ],
   "note": ""
  },
  {
   "property": "C49",
   "status": "proved",
   "theorems": [
    "C49_price",
    "C49_no_price"
   ],
   "note": ""
  },
  {
   "property": "C50",
   "status": "proved",
   "theorems": [
    "C50_half",
    "C50_muda"
   ],
   "note": ""
  },
  {
   "property": "C51",
   "status": "proved",
   "theorems": [
    "C51_cut",
    "C51_cut_too_much",
    "C51_cut_empty"
   ],
   "note": ""
  },
  {
   "property": "C52",
   "status": "proved",
   "theorems": [
    "C52_order",
    "C52_arithmetic",
    "C52_extrema"
   ],
   "note": ""
  },
  {
   "property": "C53",
   "status": "proved",
   "theorems": [
    "C53_uniform_outcome",
    "C53_uniform_market",
    "C53_uniform_runs",
    "C53_uniform_welfare",
    "C53_uniform_percentage",
    "C53_uniform_at_least",
    "C53_uniform_truthful_refuted",
    "C53_uniform_left_out_refuted"
   ],
   "note": "The last two clauses are the theorems with suffix _refuted (truthfulness, nobody left out)."
  },
  {
   "property": "C54",
   "status": "proved",
   "theorems": [
    "C54_p2p_pair",
    "C54_p2p_truthful_refuted"
   ],
   "note": "C54_p2p_truthful_refuted states for all single pair markets that misreporting pays."
  },
  {
   "property": "C55",
   "status": "proved",
   "theorems": [
    "C55_rounded_model",
    "C55_p2p_rounded",
    "C55_p2p_quantities",
    "C55_p2p_price",
    "C55_p2p_price_near",
    "C55_p2p_feasible_refuted",
    "C55_p2p_rational_refuted"
   ],
   "note": "Any rounding; f64 is IEEE binary64 to nearest with unbounded exponent. The exact versions of the bounds are refuted by C55_p2p_feasible_refuted and C55_p2p_rational_refuted, as the statement says."
  },
  {
   "property": "C56",
   "status": "proved",
   "theorems": [
    "C56_huang_rounded",
    "C56_huang_imbalance",
    "C56_huang_errors",
    "C56_huang_total_refuted",
    "C56_huang_balance_refuted"
   ],
   "note": "As C55. C56_huang_total_refuted and C56_huang_balance_refuted are the last clauses of the statement."
  },
  {
   "property": "C57",
   "status": "proved",
   "theorems": [
    "C57_numpy_sums",
    "C57_muda_rounded",
    "C57_muda_errors",
    "C57_muda_imbalance",
    "C57_muda_small",
    "C57_muda_balance_refuted",
    "C57_muda_feasible_refuted"
   ],
   "note": "As C55. C57_muda_balance_refuted and C57_muda_feasible_refuted are the last clauses of the statement; the balance theorem needs left to right sums."
  },
  {
   "property": "C58",
   "status": "proved",
   "theorems": [
    "C58_curves_drawn",
    "C58_demand_shown",
    "C58_supply_shown",
    "C58_market_plot",
    "C58_curves_cross",
    "C58_demand_falls",
    "C58_supply_rises_iff",
    "C58_supply_rises_refuted"
   ],
   "note": "The points handed to matplotlib are modelled; drawing them as steps is Drawn in SpecPlot. C58_supply_rises_refuted is the last clause of the statement."
  },
  {
   "property": "C59",
   "status": "proved",
   "theorems": [
    "C59_graph",
    "C59_labels_exact",
    "C59_layout_partial",
    "C59_layout_refuted",
    "C59_edges_traded_refuted",
    "C59_labels_refuted"
   ],
   "note": "Nodes, edges, labels and the top set handed to networkx are modelled, positions and colours are not. The refuted theorems and C59_layout_partial are clauses of the statement."
  },
  {
   "property": "C60",
   "status": "proved",
   "theorems": [
    "C60_muda_panels",
    "C60_huang_area",
    "C60_huang_area_refuted"
   ],
   "note": "As C58. C60_huang_area_refuted is the last clause of the statement."
  },
  {
   "property": "C61",
   "status": "proved",
   "theorems": [
    "C61_attributes_ignored",
    "C61_sampling_ignored",
    "C61_sampling_free",
    "C61_stable",
    "C61_indivisible_refuted"
   ],
   "note": "compares_prices says that sort_values compares prices only. C61_indivisible_refuted is the last clause of the statement."
  },
  {
   "property": "C62",
   "status": "proved",
   "theorems": [
    "C62_huang_quantity_any",
    "C62_huang_price_any",
    "C62_p2p",
    "C62_muda",
    "C62_huang_auction",
    "C62_huang_quantity",
    "C62_huang_price",
    "C62_huang_price_refuted",
    "C62_percentages",
    "C62_profits"
   ],
   "note": "As C61. C62_huang_price_refuted is a clause of the statement."
  },
  {
   "property": "C63",
   "status": "proved",
   "theorems": [
    "C63_huang_any",
    "C63_huang",
    "C63_p2p",
    "C63_muda",
    "C63_muda_refuted"
   ],
   "note": "As C61. C63_muda_refuted is the last clause of the statement."
  },
  {
   "property": "C64",
   "status": "proved",
   "theorems": [
    "C64_moved_exists",
    "C64_huang_sort",
    "C64_huang_order",
    "C64_p2p_order",
    "C64_muda_order",
    "C64_muda_ties_refuted"
   ],
   "note": "C64_huang_sort, C64_huang_order, C64_p2p_order, C64_muda_order; C64_muda_ties_refuted for equal prices."
  },
  {
   "property": "C65",
   "status": "proved",
   "theorems": [
    "C65_huang_total",
    "C65_huang_summary",
    "C65_huang_rational",
    "C65_huang_budget",
    "C65_huang_rational_refuted",
    "C65_price",
    "C65_price_refuted",
    "C65_muda_not_implemented",
    "C65_muda_errors",
    "C65_muda_total"
   ],
   "note": "C65_huang_rational_refuted and C65_price_refuted are the clauses of the statement about negative bids."
  },
  {
   "property": "C66",
   "status": "proved",
   "theorems": [
    "C66_huang_raised",
    "C66_muda_raised",
    "C66_p2p_raised",
    "C66_huang_raised_refuted",
    "C66_muda_raised_refuted"
   ],
   "note": "compares_prices as in C61. The refuted theorems are the last clause of the statement."
  },
  {
   "property": "C67",
   "status": "proved",
   "theorems": [
    "C67_truthful",
    "C67_group_fee",
    "C67_two_sides_refuted",
    "C67_two_halves_refuted",
    "C67_other_half_refuted",
    "C67_two_users_refuted"
   ],
   "note": "The refuted theorems are the last sentence of the statement. C24 is the special case of one name, the same bids and smaller quantities."
  },
  {
   "property": "C68",
   "status": "proved",
   "theorems": [
    "C68_huang_quantity",
    "C68_huang_loss",
    "C68_huang_share",
    "C68_huang_equal_quantities",
    "C68_huang_share_refuted",
    "C68_muda_half",
    "C68_muda_refuted",
    "C68_p2p_refuted"
   ],
   "note": "quantity and welfare bounds for the Huang auction, the unit case, efficiency of a half of MUDA; the failures with rationing, for the whole of MUDA and for peer to peer are shown by runs"
  },
  {
   "property": "C69",
   "status": "proved",
   "theorems": [
    "C69_losers_leave",
    "C69_determined",
    "C69_one_side",
    "C69_maximum_volume",
    "C69_maximum_welfare",
    "C69_price_refuted",
    "C69_trade_refuted"
   ],
   "note": "Removal and one-sided additions for the Huang auction for all sorters; the optima for every solver that returns an optimum. The two false monotonicity claims are refuted by concrete runs."
  },
  {
   "property": "C70",
   "status": "proved",
   "theorems": [
    "C70_rounded_model",
    "C70_merge_rounded",
    "C70_price_rounding",
    "C70_total",
    "C70_returns_refuted",
    "C70_market_rounded",
    "C70_rational",
    "C70_strict",
    "C70_strict_general",
    "C70_quantity",
    "C70_split_rounded",
    "C70_shares",
    "C70_balance",
    "C70_balance_double",
    "C70_feasible_refuted"
   ],
   "note": "Model of merging, clearing and splitting in rounded arithmetic (ModelRoundMarket.v); equal to the exact model when nothing is rounded. The natural exact statements are refuted by runs in double precision (C70_feasible_refuted, C70_returns_refuted); the statement lists them with the exact error bounds."
  },
  {
   "property": "C71",
   "status": "proved",
   "theorems": [
    "C71_update_quantity",
    "C71_intersect",
    "C71_fees",
    "C71_split",
    "C71_programs",
    "C71_generate"
   ],
   "note": "All clauses are characterisations in both directions, for arbitrary arguments of the helpers. The exception for a group without quantity stands for the nan that the code computes (see ModelMerge.v)."
  },
  {
   "property": "C72",
   "status": "proved",
   "theorems": [
    "C72_rounded_model",
    "C72_profits_error",
    "C72_market_error",
    "C72_accounting",
    "C72_ratios_error",
    "C72_no_loss",
    "C72_huang_no_loss",
    "C72_muda_no_loss",
    "C72_p2p_no_loss",
    "C72_p2p_no_loss_refuted",
    "C72_huang_market",
    "C72_huang_market_refuted",
    "C72_ratio_refuted"
   ],
   "note": "The value of the linear program is an argument: solvers are outside of pymarket. The three refuted clauses are part of the statement and have double precision witnesses."
  },
  {
   "property": "C73",
   "status": "proved",
   "theorems": [
    "C73_huang",
    "C73_uniform",
    "C73_muda",
    "C73_p2p"
   ],
   "note": ""
  },
  {
   "property": "C74",
   "status": "proved",
   "theorems": [
    "C74_huang_raises",
    "C74_huang_sound",
    "C74_huang_zero",
    "C74_zero_bid",
    "C74_p2p",
    "C74_unchanged"
   ],
   "note": ""
  },
  {
   "property": "C75",
   "status": "proved",
   "theorems": [
    "C75_book",
    "C75_split"
   ],
   "note": ""
  },
  {
   "property": "C76",
   "status": "proved",
   "theorems": [
    "C76_rounded_model",
    "C76_uniform_rounded",
    "C76_uniform_runs",
    "C76_uniform_running_sums",
    "C76_uniform_double_small",
    "C76_uniform_any_sums",
    "C76_nonneg_refuted",
    "C76_balance_refuted"
   ],
   "note": ""
  },
  {
   "property": "C77",
   "status": "proved",
   "theorems": [
    "C77_price",
    "C77_huang",
    "C77_huang_quantity_refuted",
    "C77_muda",
    "C77_muda_fees_refuted",
    "C77_uniform",
    "C77_p2p",
    "C77_profit",
    "C77_orders"
   ],
   "note": ""
  },
  {
   "property": "C78",
   "status": "proved",
   "theorems": [
    "C78_best_exists",
    "C78_uniform",
    "C78_volume",
    "C78_huang",
    "C78_muda",
    "C78_p2p",
    "C78_p2p_ends",
    "C78_run",
    "C78_p2p_most",
    "C78_percentage",
    "C78_muda_huang_unordered",
    "C78_huang_uniform",
    "C78_huang_uniform_none",
    "C78_muda_gain_refuted",
    "C78_p2p_gain_refuted"
   ],
   "note": ""
  },
  {
   "property": "C79",
   "status": "proved",
   "theorems": [
    "C79_huang",
    "C79_huang_percentage",
    "C79_p2p",
    "C79_p2p_run",
    "C79_uniform",
    "C79_volume",
    "C79_muda_refuted"
   ],
   "note": ""
  },
  {
   "property": "C80",
   "status": "proved",
   "theorems": [
    "C80_law",
    "C80_exists",
    "C80_never",
    "C80_first_meeting",
    "C80_first_round",
    "C80_order",
    "C80_twins",
    "C80_money"
   ],
   "note": ""
  },
  {
   "property": "C81",
   "status": "proved",
   "theorems": [
    "C81_rand",
    "C81_swap",
    "C81_swap_mean",
    "C81_truthful",
    "C81_participation",
    "C81_two_bids_refuted",
    "C81_two_sides_refuted",
    "C81_trade_chance",
    "C81_trade_chance_same",
    "C81_order",
    "C81_order_quantity",
    "C81_order_refuted"
   ],
   "note": ""
  },
  {
   "property": "C82",
   "status": "proved",
   "theorems": [
    "C82_fee_close",
    "C82_fee_double",
    "C82_fee_exact",
    "C82_no_error",
    "C82_fee_gain_refuted"
   ],
   "note": ""
  },
  {
   "property": "C83",
   "status": "proved",
   "theorems": [
    "C83_double_grid",
    "C83_muda",
    "C83_p2p",
    "C83_uniform",
    "C83_huang",
    "C83_huang_exact",
    "C83_profits",
    "C83_shares",
    "C83_whole",
    "C83_curves",
    "C83_tenths_refuted",
    "C83_size_refuted"
   ],
   "note": ""
  },
  {
   "property": "C84",
   "status": "proved",
   "theorems": [
    "C84_exactly",
    "C84_unchanged",
    "C84_empty_result_refuted",
    "C84_one_sided",
    "C84_sellers",
    "C84_one_more",
    "C84_same_price",
    "C84_rounded"
   ],
   "note": ""
  },
  {
   "property": "C85",
   "status": "proved",
   "theorems": [
    "C85_profits",
    "C85_profits_rounded",
    "C85_exactly",
    "C85_effects",
    "C85_shares",
    "C85_before_run",
    "C85_p2p",
    "C85_after_run_refuted"
   ],
   "note": ""
  },
  {
   "property": "C86",
   "status": "proved",
   "theorems": [
    "C86_update_quantity",
    "C86_intersect",
    "C86_trading_bids",
    "C86_fees",
    "C86_p2p_labels",
    "C86_split",
    "C86_sampling"
   ],
   "note": ""
  },
  {
   "property": "C87",
   "status": "proved",
   "theorems": [
    "C87_huang",
    "C87_price",
    "C87_muda",
    "C87_uniform",
    "C87_ties_refuted"
   ],
   "note": ""
  },
  {
   "property": "C88",
   "status": "proved",
   "theorems": [
    "C88_p2p",
    "C88_ties_refuted"
   ],
   "note": ""
  },
  {
   "property": "C89",
   "status": "proved",
   "theorems": [
    "C89_grid",
    "C89_agrees",
    "C89_sums",
    "C89_error",
    "C89_free",
    "C89_muda",
    "C89_uniform",
    "C89_p2p_grid",
    "C89_huang",
    "C89_whole",
    "C89_profits",
    "C89_p2p",
    "C89_p2p_price",
    "C89_underflow_refuted"
   ],
   "note": ""
  },
  {
   "property": "C90",
   "status": "proved",
   "theorems": [
    "C90_rounds",
    "C90_trades",
    "C90_once",
    "C90_market"
   ],
   "note": ""
  },
  {
   "property": "C91",
   "status": "proved",
   "theorems": [
    "C91_binary64",
    "C91_f64",
    "C91_unique",
    "C91_machine"
   ],
   "note": ""
  },
  {
   "property": "C92",
   "status": "proved",
   "theorems": [
    "C92_muda",
    "C92_uniform",
    "C92_huang",
    "C92_huang_winner",
    "C92_market_muda",
    "C92_market_uniform",
    "C92_huang_larger_refuted",
    "C92_huang_market_refuted",
    "C92_p2p_refuted"
   ],
   "note": ""
  },
  {
   "property": "C93",
   "status": "proved",
   "theorems": [
    "C93_quantities",
    "C93_equilibrium",
    "C93_clears",
    "C93_no_envy",
    "C93_core",
    "C93_middle_refuted",
    "C93_huang_no_envy",
    "C93_huang_envy_refuted",
    "C93_huang_blocked",
    "C93_muda_no_envy",
    "C93_muda_refuted",
    "C93_p2p_refuted"
   ],
   "note": "Equilibrium, envy-freeness and the core for the uniform price mechanism with the exact condition on its price; envy and blocking pairs for the Huang auction, MUDA and random meetings. The clauses that fail (`_refuted`) are part of the statement."
  },
  {
   "property": "C94",
   "status": "proved",
   "theorems": [
    "C94_muda_names",
    "C94_muda_rest",
    "C94_muda_halves_refuted",
    "C94_uniform",
    "C94_uniform_price_refuted",
    "C94_p2p"
   ],
   "note": "MUDA: total net of the two names and net of the others; uniform price: quantities and the exact cases of the price for any number of pieces; random meetings: chances. The clauses that fail (`_refuted`) are part of the statement. The Huang auction is covered by C75."
  },
  {
   "property": "C95",
   "status": "proved",
   "theorems": [
    "C95_exact",
    "C95_rounded",
    "C95_runs",
    "C95_all_runs",
    "C95_meetings",
    "C95_related",
    "C95_order",
    "C95_coefficient",
    "C95_finite",
    "C95_nan_quantity",
    "C95_nan_price",
    "C95_infinite",
    "C95_infinite_pair",
    "C95_infinite_price"
   ],
   "note": "One generic model; agreement with p2p_random and p2p_random_r; soundness and completeness of the description for every arithmetic; NaN on SpecFloat binary64 with numpy's pairwise sum; infinite quantities on rationals with infinities (no rounding)."
  },
  {
   "property": "C96",
   "status": "proved",
   "theorems": [
    "C96_add",
    "C96_sub",
    "C96_mul",
    "C96_div",
    "C96_compare",
    "C96_float",
    "C96_p2p",
    "C96_exact",
    "C96_price"
   ],
   "note": "Direct proof without reals: the guard and sticky bits of SpecFloat are related to the exact quotient, so that its rounding is rint of the model; digits to exponents; canonical form for comparisons; then a relation between rationals and doubles is lifted through the loop of peer to peer trading."
  },
  {
   "property": "C97",
   "status": "proved",
   "theorems": [
    "C97_rounded",
    "C97_values",
    "C97_huang",
    "C97_muda",
    "C97_uniform",
    "C97_profits",
    "C97_percentages",
    "C97_whole"
   ],
   "note": "The mechanisms are written once more with the four operations as parameters; with rounded operations this is the rounded model. Every intermediate value is bounded by a small multiple of a power of two, which is a machine number, so rounding keeps the bound and C96 gives each operation."
  },
  {
   "property": "C98",
   "status": "proved",
   "theorems": [
    "C98_rounded",
    "C98_merge",
    "C98_split",
    "C98_run",
    "C98_run_muda",
    "C98_statistics",
    "C98_statistics_muda",
    "C98_huang_safe",
    "C98_no_loss",
    "C98_muda_safe"
   ],
   "note": "Merging and splitting are written with the operations as parameters, as in C97. A group total of doubles that are not negative is at least each of its members, so the quotients of a split are at most 1. The bounds on transactions and fees that the statistics of C97 need are derived from the runs. The guarantees follow from C57, C70 and C72."
  },
  {
   "property": "C99",
   "status": "proved",
   "theorems": [
    "C99_finite",
    "C99_large_prices",
    "C99_flood",
    "C99_no_error",
    "C99_fair",
    "C99_nan",
    "C99_nan_negative_refuted"
   ],
   "note": "The curves already have extended values, so intersect_stepwise needs no new model; only the table and the auction do. Market.run's merging is not covered for such prices. (f) is a refutation, stated in the property."
  },
  {
   "property": "C100",
   "status": "proved",
   "theorems": [
    "C100_table",
    "C100_exists",
    "C100_p2p",
    "C100_muda",
    "C100_huang",
    "C100_huang_positive",
    "C100_apart",
    "C100_apart_shares",
    "C100_apart_statistics",
    "C100_notebook",
    "C100_over",
    "C100_loss",
    "C100_huang_always_refuted"
   ],
   "note": "Exact arithmetic. (c) contains a refutation (C100_huang_always_refuted). (f) is about huang_auction on the table itself, without merging of rounded prices. The error of (d) is that of C85, for pandas 0.25.3."
  },
  {
   "property": "C101",
   "status": "proved",
   "theorems": [
    "C101_quantity",
    "C101_loss",
    "C101_ratio",
    "C101_generated",
    "C101_one_bid_refuted"
   ],
   "note": "Exact arithmetic. (b) contains a refutation (C101_one_bid_refuted). (d) is in rounded prices."
  },
  {
   "property": "C102",
   "status": "proved",
   "theorems": [
    "C102_exact",
    "C102_generate",
    "C102_double",
    "C102_dyadic",
    "C102_runs",
    "C102_distinct_refuted"
   ],
   "note": "Unbounded exponents (no overflow, no subnormal numbers). np.arange is modelled as numpy computes it: ceil of the rounded quotient, rounded multiples of the step. (c) contains a refutation (C102_distinct_refuted). The doctest of generate is reproduced to the last digit, with the drawn positions read off its output."
  },
  {
   "property": "C103",
   "status": "proved",
   "theorems": [
    "C103_finite",
    "C103_fair",
    "C103_runs",
    "C103_errors",
    "C103_nan",
    "C103_one_half",
    "C103_price_refuted",
    "C103_fee_refuted"
   ],
   "note": "Prices are extended rationals without rounding; quantities are finite and exact. Series.sum skips NaN and groupby leaves out NaN keys, as pandas does by default. (e) contains refutations (C103_price_refuted, C103_fee_refuted)."
  },
  {
   "property": "C104",
   "status": "proved",
   "theorems": [
    "C104_finite",
    "C104_large_prices",
    "C104_flood",
    "C104_nan",
    "C104_fair",
    "C104_total",
    "C104_errors"
   ],
   "note": "Prices are extended rationals without rounding errors; quantities are finite and exact. That groupby has no group for NaN and sorts infinite keys at the ends is taken from pandas' defaults. (c) and (e) assume a bid with a price on either side; (d) is stated for all tables, but what pandas does if a side has bids and all of them are NaN was not checked."
  },
  {
   "property": "C105",
   "status": "proved",
   "theorems": [
    "C105_finite",
    "C105_players",
    "C105_market",
    "C105_muda_players",
    "C105_huang_players",
    "C105_huang_market",
    "C105_muda_market",
    "C105_muda_market_refuted"
   ],
   "note": "Prices are extended rationals without rounding errors; quantities are finite and exact. That groupby.sum leaves out NaN and gives 0 for a group of NaN only, and that ndarray.sum does not, is taken from the defaults of pandas and numpy. With repeated labels the filled dictionary of reservation prices is that of the main model only (C105_finite assumes unique labels)."
  },
  {
   "property": "C106",
   "status": "proved",
   "theorems": [
    "C106_finite",
    "C106_cleared",
    "C106_one_sided",
    "C106_fair",
    "C106_nan",
    "C106_infinite",
    "C106_flood",
    "C106_large_prices",
    "C106_price_refuted",
    "C106_nan_price_refuted"
   ],
   "note": "Prices are extended rationals without rounding errors; quantities are finite and exact. Sorting puts NaN last in both directions, as pandas does by default. With negative asking prices only (a), (e) and (f) are claimed."
  },
  {
   "property": "C107",
   "status": "proved",
   "theorems": [
    "C107_players",
    "C107_market",
    "C107_market_nan",
    "C107_market_refuted"
   ],
   "note": "Prices are extended rationals without rounding errors; quantities are finite and exact. That groupby.sum leaves out NaN and ndarray.sum does not is taken from the defaults of pandas and numpy, as for C105."
  },
  {
   "property": "C108",
   "status": "proved",
   "theorems": [
    "C108_finite",
    "C108_meetings",
    "C108_nan",
    "C108_large_prices",
    "C108_price",
    "C108_players",
    "C108_market",
    "C108_market_refuted",
    "C108_price_refuted"
   ],
   "note": "Prices are extended rationals without rounding errors; quantities are finite and exact. That groupby.sum leaves out NaN and ndarray.sum does not is taken from the defaults of pandas and numpy, as for C105. C95 has the runs on other kinds of numbers, including IEEE 754 doubles."
  },
  {
   "property": "C109",
   "status": "proved",
   "theorems": [
    "C109_program",
    "C109_meaning",
    "C109_p2p_half"
   ],
   "note": "Quantities are finite and exact. The solver is any function that returns an optimum whenever there is one, as in ModelStats.v. maximum_aggregated_utility is not treated: there infinite prices would be coefficients of the objective, and what pulp does with them was not modelled."
  },
  {
   "property": "C110",
   "status": "proved",
   "theorems": [
    "C110_p2p",
    "C110_muda",
    "C110_huang",
    "C110_uniform",
    "C110_negative_refuted",
    "C110_uniform_refuted"
   ],
   "note": "The mechanisms are taken as functions of the table, before Market.run merges and rounds bids for Huang."
  },
  {
   "property": "C111",
   "status": "proved",
   "theorems": [
    "C111_accept",
    "C111_within",
    "C111_negative_refuted"
   ],
   "note": "As in C104, tables in which one side has no price but NaN are left out."
  },
  {
   "property": "C112",
   "status": "proved",
   "theorems": [
    "C112_capped",
    "C112_half",
    "C112_more_refuted"
   ],
   "note": "The prices of the transactions are not part of (a); they are described in C108."
  }
 ]
}