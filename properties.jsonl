{"id": "C01", "title": "Bid identifiers are sequential and bids are never altered", "statement": "The k-th call (from 0) of Market.accept_bid / BidManager.add_bid returns k, row k of every later get_df() holds exactly the fields passed in that call, and no later operation (more bids, runs of any mechanism, statistics) changes, drops or reorders earlier rows.", "quantifier": "every sequence of accept_bid / run / statistics calls of any length, with any arguments", "why_tests_cant": "A test fixes one history; the claim is an invariant over all interleavings of bids, runs and statistics.", "anchors": ["pymarket/bids/bids.py: BidManager.add_bid, get_df", "pymarket/market.py: Market.accept_bid, run, statistics"]}
{"id": "C02", "title": "TransactionManager is an append-only log and merge is concatenation", "statement": "add_transaction returns the number of transactions stored before it and appends; n_trans always equals the number of stored transactions; a.merge(b) lists all of a then all of b in order, with n_trans the sum, and leaves a and b unchanged.", "quantifier": "every sequence of add_transaction calls and every pair of managers", "why_tests_cant": "Length and content of the log are unbounded.", "anchors": ["pymarket/transactions/transactions.py: TransactionManager"]}
{"id": "C03", "title": "The demand curve is the inverse of aggregate demand", "statement": "For every quantity x with 0 < x <= total demanded, evaluating the demand curve at x gives the price p such that buyers bidding at least p want at least x while buyers bidding strictly more than p want less than x; beyond the total the value is 0; selling bids never matter; the result does not depend on how the sort breaks ties.", "quantifier": "every finite collection of bids with nonnegative quantities, every x, every sorting algorithm", "why_tests_cant": "Requires all bid sets, all evaluation points and all tie-breaks.", "anchors": ["pymarket/bids/demand_curves.py: demand_curve_from_bids, get_value_stepwise"]}
{"id": "C04", "title": "The supply curve is the inverse of aggregate supply", "statement": "For every quantity x with 0 < x <= total offered, evaluating the supply curve at x gives the price p such that sellers asking at most p offer at least x while sellers asking strictly less than p offer less than x; beyond the total the value is infinite; buying bids never matter; tie-breaking does not matter.", "quantifier": "every finite collection of bids with nonnegative quantities, every x, every sorting algorithm", "why_tests_cant": "Requires all bid sets, all evaluation points and all tie-breaks.", "anchors": ["pymarket/bids/demand_curves.py: supply_curve_from_bids, get_value_stepwise"]}
{"id": "C05", "title": "Curves list every bid of their side once, in price order, with cumulative quantities", "statement": "The index returned with a curve is a permutation of the identifiers of the bids on that side; prices are non-increasing (demand) / non-decreasing (supply); the i-th abscissa is the sum of the first i+1 quantities; the last row is (inf,0) / (inf,inf).", "quantifier": "every finite collection of bids, every sorting algorithm", "why_tests_cant": "Unbounded number of bids and ties.", "anchors": ["pymarket/bids/demand_curves.py: demand_curve_from_bids, supply_curve_from_bids"]}
{"id": "C06", "title": "intersect_stepwise finds the unique strict crossing of two monotone step functions", "statement": "For f non-increasing and g non-decreasing, the returned x* is a breakpoint at which f > g and just after which f < g; then f > g on all of (0,x*] and f < g on everything after x* where both are defined, so x* is unique; None is returned exactly when no such point exists; the returned indices are those of the pieces of f and g containing x*.", "quantifier": "all pairs of monotone step curves with increasing abscissae", "why_tests_cant": "Quantifies over all curves and all points; uniqueness is a global claim.", "anchors": ["pymarket/bids/demand_curves.py: intersect_stepwise"]}
{"id": "C07", "title": "The value returned at a crossing lies between the two curves", "statement": "When a crossing exists and 0 <= k <= 1, the returned ordinate v satisfies g(x*) <= v <= f(x*); when x* is a breakpoint of only one curve, v additionally lies between the values of both curves just after x*, so v is a market clearing price; at a common breakpoint the clearing property can fail.", "quantifier": "all pairs of monotone step curves, all k in [0,1]", "why_tests_cant": "All curves; the common-breakpoint failure is a specific corner.", "anchors": ["pymarket/bids/demand_curves.py: intersect_stepwise", "pymarket/mechanisms/muda_auction.py: find_competitive_price"]}
{"id": "C08", "title": "Huang auction conserves quantity", "statement": "The total quantity sold equals the total quantity bought equals extra[\"quantity_traded\"].", "quantifier": "every bid set with nonnegative quantities and prices, every tie-breaking", "why_tests_cant": "Sums over arbitrary bid sets after an iterative rationing loop.", "anchors": ["pymarket/mechanisms/huang_auction.py: huang_auction, update_quantity"]}
{"id": "C09", "title": "Huang auction never over-fills a bid", "statement": "Each transaction refers to a submitted bid, no bid appears in two transactions, and 0 <= traded quantity <= bid quantity.", "quantifier": "every bid set with nonnegative quantities and prices", "why_tests_cant": "All bid sets.", "anchors": ["pymarket/mechanisms/huang_auction.py: huang_auction"]}
{"id": "C10", "title": "Huang auction is individually rational and leaves a surplus to the market maker", "statement": "All sellers are paid the single price extra[\"price_sell\"], all buyers pay the single price extra[\"price_buy\"], price_sell < price_buy, no buyer pays more than its bid and no seller receives less than its ask.", "quantifier": "every bid set with nonnegative quantities and prices", "why_tests_cant": "All bid sets.", "anchors": ["pymarket/mechanisms/huang_auction.py: huang_auction"]}
{"id": "C11", "title": "Huang auction: exactly the bids strictly better than the price setters trade", "statement": "When prices are distinct per side, the buyers that appear in transactions are exactly those bidding strictly more than price_buy, the sellers exactly those asking strictly less than price_sell (both empty if either is empty), the price setters are submitted bids that do not trade, and the quantity traded is the smaller of the two totals.", "quantifier": "every bid set with distinct prices per side", "why_tests_cant": "All bid sets; selection is global.", "anchors": ["pymarket/mechanisms/huang_auction.py: huang_auction"]}
{"id": "C12", "title": "update_quantity rations the long side by equal reduction", "statement": "For nonnegative quantities and 0 <= gap <= sum, the loop terminates without error and the result is max(0, q_i - t) for one common t >= 0, with total exactly sum - gap.", "quantifier": "all nonempty arrays and all gaps", "why_tests_cant": "Loop with data dependent iteration count.", "anchors": ["pymarket/mechanisms/huang_auction.py: update_quantity"]}
{"id": "C13", "title": "huang_auction never raises on well-formed bids", "statement": "For nonnegative quantities and prices the auction always returns.", "quantifier": "every bid set with nonnegative quantities and prices", "why_tests_cant": "All executions including every index operation and loop.", "anchors": ["pymarket/mechanisms/huang_auction.py: huang_auction", "pymarket/bids/demand_curves.py: intersect_stepwise"]}
{"id": "C14", "title": "merge_same_price partitions the bids by side and rounded price", "statement": "Every original bid appears in exactly one list of the mapping; all bids of one list are on one side and share the rounded price, which is the price of the merged bid; two merged bids of one side have different prices; the merged quantity is the sum; buyers come first, prices ascending.", "quantifier": "every bid collection and every precision", "why_tests_cant": "All bid sets and groupings.", "anchors": ["pymarket/bids/processing.py: merge_same_price"]}
{"id": "C15", "title": "split_transactions_merged_players distributes proportionally and conserves totals", "statement": "Each transaction on a merged bid is replaced by one per original bid, with the same price, source and flag, quantity proportional to the original quantities and summing to the merged transaction.", "quantifier": "every transaction list, mapping and bid table whose groups have nonzero total quantity", "why_tests_cant": "All mappings and transactions.", "anchors": ["pymarket/transactions/processing.py: split_transactions_merged_players"]}
{"id": "C16", "title": "Market.run(\"huang\") is balanced, feasible and individually rational for the original bids", "statement": "After merging (with prices rounded to 5 decimals), clearing and splitting, total bought equals total sold, no original bid trades more than its quantity or twice, every buyer pays strictly less than its own unrounded price and every seller receives strictly more than its own unrounded price.", "quantifier": "every market with positive quantities and non-negative prices, except those with only bids to buy at one rounded price, on which the run raises KeyError (C84)", "why_tests_cant": "Composition of rounding, merging, clearing and splitting over all bid sets.", "anchors": ["pymarket/market.py: Market.run", "pymarket/mechanisms/mechanism.py: Mechanism", "pymarket/bids/processing.py: merge_same_price", "pymarket/transactions/processing.py: split_transactions_merged_players"]}
{"id": "C17", "title": "Splitting with fees", "statement": "Passing fees to split_transactions_merged_players splits the fee of a merged player among its members in proportion to quantity.", "quantifier": "every transaction list, mapping, bid table and fee table", "why_tests_cant": "The branch is not covered by any test; the claim ranges over all mappings.", "anchors": ["pymarket/transactions/processing.py: split_transactions_merged_players"]}
{"id": "C18", "title": "Identifiers of merged players are fresh and distinct", "statement": "merge_same_price gives each merged group of two or more bids a new user id larger than every submitted user id, different for different groups, and keeps the user of a single bid; the counter behind it is shared, so two interleaved generators may return the same id.", "quantifier": "every bid collection; every interleaving of generator creations and calls", "why_tests_cant": "Shared mutable function attribute: depends on call history.", "anchors": ["pymarket/bids/processing.py: new_player_id, merge_same_price"]}
{"id": "C19", "title": "MUDA splits the bids in two disjoint halves and prices each half only from the other", "statement": "extra[\"left\"] and extra[\"right\"] are disjoint and cover all bids; every transaction of a left bid is at price_right and of a right bid at price_left; changing bids of one half does not change the price at which that half trades.", "quantifier": "every bid set and every outcome of the random generator", "why_tests_cant": "All random outcomes and all bid sets.", "anchors": ["pymarket/mechanisms/muda_auction.py: muda"]}
{"id": "C20", "title": "MUDA is balanced, feasible and individually rational", "statement": "In each half total bought equals total sold at one price, no bid trades more than its quantity or appears twice, no buyer pays more than its bid and no seller receives less than its ask.", "quantifier": "every bid set with nonnegative quantities, every random outcome, every tie-break", "why_tests_cant": "All bid sets, random outcomes.", "anchors": ["pymarket/mechanisms/muda_auction.py: muda, solve_market_side_with_exogenous_price, get_trading_bids"]}
{"id": "C21", "title": "Each MUDA half trades the maximum volume at its price, best bids first", "statement": "The volume traded at price p is min(D(p), S(p)) where D and S are demand at >= p and supply at <= p; on the long side, if a bid is not completely filled then no strictly worse bid trades.", "quantifier": "every bid set, price and tie-break", "why_tests_cant": "All bid sets and prices.", "anchors": ["pymarket/mechanisms/muda_auction.py: solve_market_side, get_trading_bids"]}
{"id": "C22", "title": "MUDA fees are Vickrey externalities", "statement": "The fee of a trading user on the long side equals the best total gain the other long-side users could obtain in its absence minus the gain they actually obtain; nobody else is charged.", "quantifier": "every bid set, price and tie-break", "why_tests_cant": "The specification is a maximum over infinitely many allocations.", "anchors": ["pymarket/mechanisms/muda_auction.py: compute_fee, solve_market_side_with_exogenous_price"]}
{"id": "C23", "title": "MUDA fees are nonnegative and never exceed the gain of the payer", "statement": "For each user fee >= 0 and fee <= the user's gain from trade in that half (according to its bids), so a truthful participant never loses.", "quantifier": "every bid set, price and tie-break", "why_tests_cant": "All bid sets.", "anchors": ["pymarket/mechanisms/muda_auction.py: compute_fee"]}
{"id": "C24", "title": "MUDA is truthful in prices", "statement": "A user whose bids all fall in one half and on one side cannot increase its utility (value of what it trades, minus payments, minus fee) by misreporting prices, for every fixed outcome of the random generator.", "quantifier": "every bid set, every user, every misreport, every random outcome", "why_tests_cant": "Dominant strategy claim over all deviations.", "anchors": ["pymarket/mechanisms/muda_auction.py: muda"]}
{"id": "C25", "title": "When MUDA raises", "statement": "muda raises NotImplementedError exactly when one user has two bids at the same price on the same side; otherwise the only failure on well-formed bids is IndexError, and it cannot happen when user ids are smaller than the number of distinct users.", "quantifier": "every bid set and random outcome", "why_tests_cant": "All user id patterns and random outcomes.", "anchors": ["pymarket/utils/decorators.py: check_equal_price", "pymarket/mechanisms/muda_auction.py: muda"]}
{"id": "C26", "title": "MUDA reports the total fee of each user", "statement": "extra[\"fees\"][u] is the sum of the fees charged to u in the two halves.", "quantifier": "every bid set and random outcome", "why_tests_cant": "Depends on the same user being on the long side of both halves.", "anchors": ["pymarket/mechanisms/muda_auction.py: muda, solve_market_side_with_exogenous_price"]}
{"id": "C27", "title": "find_competitive_price returns a clearing price whenever buyers and sellers can trade", "statement": "If some buyer bids at least as much as some seller asks, the returned price is finite and lies between them at the margin.", "quantifier": "every bid set", "why_tests_cant": "Ties between demand and supply are a measure-zero corner that tests do not reach.", "anchors": ["pymarket/mechanisms/muda_auction.py: find_competitive_price", "pymarket/bids/demand_curves.py: intersect_stepwise"]}
{"id": "C28", "title": "P2P always terminates, no pair meets twice and each round is a matching", "statement": "p2p_random returns for every behaviour of the random generator; no (buyer, seller) pair occurs twice in the whole trading list; in a round each bid occurs at most once; each pair joins a buying and a selling bid.", "quantifier": "every bid set with nonnegative quantities and every random sequence", "why_tests_cant": "All random sequences; termination.", "anchors": ["pymarket/mechanisms/p2p_random.py: p2p_random"]}
{"id": "C29", "title": "P2P conserves quantity and never over-fills", "statement": "Transactions come in pairs (buyer, seller) with the same quantity and price, each naming the other as source; for each bid the total traded quantity is at most its quantity; all quantities are nonnegative.", "quantifier": "every bid set with nonnegative quantities and every random sequence", "why_tests_cant": "All random sequences.", "anchors": ["pymarket/mechanisms/p2p_random.py: p2p_random"]}
{"id": "C30", "title": "P2P prices are individually rational", "statement": "For 0 <= p_coef <= 1 every transaction with positive quantity has a price between the ask of the seller and the bid of the buyer; pairs with bid below ask trade nothing at price 0.", "quantifier": "every bid set, p_coef in [0,1], random sequence", "why_tests_cant": "All random sequences and coefficients.", "anchors": ["pymarket/mechanisms/p2p_random.py: p2p_random"]}
{"id": "C31", "title": "P2P leaves no profitable trade on the table", "statement": "After the run no buyer and seller with bid >= ask both have untraded quantity.", "quantifier": "every bid set with nonnegative quantities and every random sequence", "why_tests_cant": "Global claim about the final state for all random sequences.", "anchors": ["pymarket/mechanisms/p2p_random.py: p2p_random"]}
{"id": "C32", "title": "P2P trades at least half of the maximum tradable volume", "statement": "The volume traded by p2p is at least half the optimum of maximum_traded_volume.", "quantifier": "every bid set with nonnegative quantities and every random sequence", "why_tests_cant": "Approximation guarantee over all inputs and random choices.", "anchors": ["pymarket/mechanisms/p2p_random.py: p2p_random", "pymarket/statistics/maximum_traded_volume.py: maximum_traded_volume, percentage_traded"]}
{"id": "C33", "title": "The active flag tells whether a bid still has quantity left", "statement": "In each p2p transaction the active flag is True exactly when the bid has untraded quantity right after that transaction (positive quantities); in huang and muda it is always False.", "quantifier": "every bid set with positive quantities and every random sequence", "why_tests_cant": "State after each of unboundedly many transactions.", "anchors": ["pymarket/mechanisms/p2p_random.py: p2p_random"]}
{"id": "C34", "title": "Profit accounting", "statement": "The players' profits plus the market maker's profit equal the total surplus (values of buyers minus costs of sellers on traded quantities); fees move money from players to the market maker.", "quantifier": "every bid table, transaction table with at least one transaction of a bid of the table (otherwise ValueError, C85) and fee vector", "why_tests_cant": "Identity over arbitrary tables.", "anchors": ["pymarket/statistics/profits.py: calculate_profits, get_gain"]}
{"id": "C35", "title": "Nobody loses", "statement": "After any run of any mechanism, every player profit computed from the bids is >= 0 and the market maker's profit is >= 0 (exactly 0 for p2p).", "quantifier": "every market, mechanism, random sequence", "why_tests_cant": "End to end over all inputs.", "anchors": ["pymarket/market.py: Market.run, statistics", "pymarket/statistics/profits.py: calculate_profits"]}
{"id": "C36", "title": "percentage_traded is between 0 and 1", "statement": "For the transactions of any mechanism run on the market's bids, percentage_traded is None or in [0,1].", "quantifier": "every market, mechanism, random sequence", "why_tests_cant": "Compares an algorithm to an LP optimum for all inputs.", "anchors": ["pymarket/statistics/maximum_traded_volume.py: percentage_traded"]}
{"id": "C37", "title": "percentage_welfare is between 0 and 1", "statement": "For the transactions of any mechanism run on the market's bids, percentage_welfare is None or in [0,1].", "quantifier": "every market, mechanism, random sequence", "why_tests_cant": "Compares an algorithm to an LP optimum for all inputs.", "anchors": ["pymarket/statistics/maximum_aggregated_utility.py: percentage_welfare"]}
{"id": "C38", "title": "The statistics LPs always have an optimum", "statement": "For nonnegative quantities both linear programs are feasible and attain their maximum, and the maximum welfare equals the surplus of matching best buyers with best sellers.", "quantifier": "every bid set with nonnegative quantities", "why_tests_cant": "Existence of optimum for all programs generated.", "anchors": ["pymarket/statistics/maximum_traded_volume.py: maximum_traded_volume", "pymarket/statistics/maximum_aggregated_utility.py: maximum_aggregated_utility"]}
{"id": "C39", "title": "Statistics honour reservation prices and do not modify them", "statement": "percentage_traded, percentage_welfare and profits use the reservation prices given by the caller where documented, and leave the caller's dictionary unchanged.", "quantifier": "every market and reservation price dictionary", "why_tests_cant": "Aliasing and ignored arguments; all dictionaries.", "anchors": ["pymarket/statistics/maximum_aggregated_utility.py: percentage_welfare, maximum_aggregated_utility", "pymarket/statistics/maximum_traded_volume.py: percentage_traded", "pymarket/statistics/profits.py: calculate_profits"]}
{"id": "C40", "title": "Market.run is a function of the current bids and replaces the last result", "statement": "run never changes the stored bids; on success transactions and extra are exactly the result of this run; if it raises (unknown mechanism or mechanism error) the previous transactions and extra are kept; a market with bids on one side only (or none) yields no transactions and an empty extra, except that 'huang' raises KeyError when all bids are bids to buy at one rounded price (C84).", "quantifier": "every history of calls", "why_tests_cant": "All histories, including failing calls.", "anchors": ["pymarket/market.py: Market.run", "pymarket/mechanisms/mechanism.py: Mechanism._run"]}
{"id": "C41", "title": "Generated datasets are well formed", "statement": "generate(nb, ns, ...) returns nb buying bids then ns selling bids with users 0..nb+ns-1, all prices distinct per side and in [offset, offset+1), quantities in [0,1); it never fails for positive sizes; quantities may be 0.", "quantifier": "all sizes, offsets, eps > 0 and random sequences", "why_tests_cant": "All sizes and random outcomes.", "anchors": ["pymarket/datasets/uniform_bidders.py: generate"]}
{"id": "C42", "title": "Market.statistics is read-only and complete", "statement": "If the last run made transactions (for the other case see C85), statistics returns exactly the requested statistics in a fixed order, excluded ones are absent, and bids, transactions and extra of the market are unchanged.", "quantifier": "every market state and exclusion list", "why_tests_cant": "All states.", "anchors": ["pymarket/market.py: Market.statistics"]}
{"id": "C43", "title": "Clearing does not depend on the order of equally priced bids", "statement": "The competitive price, the Huang auction and a MUDA half give the same result for every order of submission of the bids and every way the sort breaks ties.", "quantifier": "every bid set, permutation and sorting algorithm", "why_tests_cant": "The sort used is not stable; only particular ties coinciding with the crossing show a difference.", "anchors": ["pymarket/bids/demand_curves.py: demand_curve_from_bids, supply_curve_from_bids, intersect_stepwise", "pymarket/mechanisms/muda_auction.py: find_competitive_price"]}
{"id": "C44", "title": "get_value_stepwise evaluates the step function", "statement": "For a nonnegative argument x the result is the value of the first step whose right end is at least x, and None when x lies beyond the last step; for a negative argument it is None.", "quantifier": "every argument (including infinity) and every list of steps", "why_tests_cant": "Boundary arguments equal to a step end, steps of width zero and infinite ends.", "anchors": ["pymarket/bids/demand_curves.py: get_value_stepwise"]}
{"id": "C45", "title": "Huang price setters are the marginal bids at the competitive quantity", "statement": "The reported prices are those of the buyer and seller in whose bids the last unit of the largest quantity tradable at one price lies, with the seller strictly below the buyer; conversely, whenever such marginal bids exist (and asks are positive) the auction returns them. It has a result exactly when find_competitive_price is finite.", "quantifier": "every bid table with positive quantities and nonnegative prices, every sorter", "why_tests_cant": "An auction that always returned nothing, or used the best bids as price setters, satisfies balance and rationality tests.", "anchors": ["pymarket/mechanisms/huang_auction.py: huang_auction", "pymarket/bids/demand_curves.py: intersect_stepwise"]}
{"id": "C46", "title": "Huang rationing: the short side is served in full, the long side gives up a common amount", "statement": "There are reductions tb, ts >= 0, one of them zero, such that every trading buyer gets max(0, quantity - tb) and every trading seller max(0, quantity - ts). For Market.run('huang') the same holds for the groups of bids of equal rounded price, and each bid gets a share of its group proportional to its quantity; bids that do not strictly beat the price setters get nothing.", "quantifier": "every bid table, every market", "why_tests_cant": "Totals can be right while individual quantities are wrong; groups and rounding interact.", "anchors": ["pymarket/mechanisms/huang_auction.py: huang_auction, update_quantity", "pymarket/mechanisms/mechanism.py: Mechanism.run", "pymarket/transactions/processing.py: split_transactions_merged_players"]}
{"id": "C47", "title": "The Huang auction is truthful", "statement": "No user can increase their profit by misreporting.", "quantifier": "every bid table, every user, every misreport", "why_tests_cant": "Incentive properties compare two runs over all misreports.", "anchors": ["pymarket/mechanisms/huang_auction.py: huang_auction", "pymarket/mechanisms/mechanism.py: Mechanism.run"]}
{"id": "C48", "title": "Peer to peer trading: the results are exactly the complete schedules of maximal rounds", "statement": "Every run of p2p_random is a sequence of rounds; each round is a nonempty maximal set of disjoint buyer-seller pairs that did not meet before (and, after the first round, still have quantity), each meeting trades the smaller remaining quantity if the buyer bids at least the ask, and rounds continue until one side has nothing left or no pair may meet. Conversely every such schedule is the result for some sequence of random numbers.", "quantifier": "every bid table with labels 0..n-1 and nonnegative quantities, every coefficient, every random sequence, every schedule", "why_tests_cant": "Tests see one random sequence; reachability of all schedules and absence of others cannot be sampled.", "anchors": ["pymarket/mechanisms/p2p_random.py: p2p_random"]}
{"id": "C49", "title": "Exact value of the competitive price", "statement": "If marginal bids exist, find_competitive_price is the price of the marginal bid that is only partly used, or the middle of both marginal prices when both are used up exactly; if no marginal bids exist it is infinity.", "quantifier": "every bid table with positive quantities, nonnegative prices and positive asks (distinct prices per side for the partly used cases), every sorter", "why_tests_cant": "Examples fix one geometry of the curves; ties, touching curves and vertical or horizontal crossings are many cases.", "anchors": ["pymarket/mechanisms/muda_auction.py: find_competitive_price", "pymarket/bids/demand_curves.py: intersect_stepwise"]}
{"id": "C50", "title": "MUDA fails exactly when a charged user has no entry in the fee array", "statement": "The fee array has one entry per distinct user and is indexed by user id. If every user that trades on the long side of a half is a valid (possibly negative) index, muda returns a result; if one is not, it raises IndexError. Transactions never depend on the fees.", "quantifier": "every bid table with nonnegative quantities and prices and no repeated price of one user on one side, all draws, every sorter", "why_tests_cant": "Test data use users 0..n-1; the failure depends on ids, on the random split and on who is on the long side.", "anchors": ["pymarket/mechanisms/muda_auction.py: muda, solve_market_side_with_exogenous_price"]}
{"id": "C51", "title": "Cutting a sorted side at the traded quantity", "statement": "For a positive quantity not above the total, get_trading_bids finds the bid in which the last unit lies, splits it in the traded part and the rest unless it is used up, and keeps all other bids and their order; for more than the total the list is unchanged and the index is the last one; an empty list raises IndexError.", "quantifier": "every list of bids with positive quantities, every quantity", "why_tests_cant": "Off-by-one positions and the exact fit are single points among arbitrary cumulative sums.", "anchors": ["pymarket/mechanisms/muda_auction.py: get_trading_bids"]}
{"id": "C52", "title": "Extended numbers of the curves follow the IEEE rules without rounding", "statement": "Comparisons with NaN are false; infinities are the extremes of a total order; sums and products with infinities, including 0 * inf = NaN, and maxima and minima with NaN are as numpy computes them.", "quantifier": "all extended numbers", "why_tests_cant": "The curves end in np.inf, so special values decide whether a crossing is found; tests with finite data never show them.", "anchors": ["pymarket/bids/demand_curves.py: intersect_stepwise, get_value_stepwise"]}
{"id": "C53", "title": "The documented uniform price mechanism is balanced, individually rational and efficient", "statement": "Running the uniform price mechanism of the documentation on a market with buyers and sellers either raises TypeError (exactly when no quantity can be traded strictly between the marginal bids) or trades the competitive quantity at the competitive price: one price for all, bought = sold, within the bids, nobody at a loss, market maker gets zero, and the welfare is the maximum over all allocations (percentage_welfare = 1, no other mechanism creates more surplus). It is not truthful, and a bid that would gain at the price may be left out.", "quantifier": "every table of bids with positive quantities and nonnegative prices, every sorting of equal prices, every solver", "why_tests_cant": "Optimality is a claim over all allocations and the cut of the long side depends on arbitrary cumulative sums.", "anchors": ["docs/new_mechanism.ipynb: uniform_price_mechanism, UniformPrice", "pymarket/bids/demand_curves.py: intersect_stepwise", "pymarket/mechanisms/mechanism.py: Mechanism"]}
{"id": "C54", "title": "Peer to peer with one pair: result and incentive", "statement": "With one buyer and one seller that can trade, p2p makes exactly one meeting at which the smaller quantity is traded at the weighted mean of the two prices, whatever the random generator does; therefore p2p is never truthful in such a market when the weight of the bid is positive: a buyer gains by bidding anything between the ask and its value.", "quantifier": "all prices, quantities, weights and random draws", "why_tests_cant": "The claim is for all prices and for every random stream.", "anchors": ["pymarket/mechanisms/p2p_random.py: p2p_random"]}
{"id": "C55", "title": "Peer to peer trading in floating point", "statement": "With every operation rounded, p2p never raises, makes each meeting once, both members of a meeting trade exactly the same nonnegative quantity (so bought = sold exactly); a bid trades at most its quantity plus one rounding unit per transaction, and of each compatible pair one member is exhausted up to the same error. With the default coefficient 1/2 the price is between ask and bid without any error, with another coefficient up to three roundings. Both errors happen in double precision: a bid can trade more than its quantity, and a buyer pay more than its bid when the coefficient is 0.2.", "quantifier": "every monotone odd idempotent rounding, every order of summation, all machine-number tables and random draws", "why_tests_cant": "Rounding errors depend on all bits of all inputs; tests with round numbers do not see them.", "anchors": ["pymarket/mechanisms/p2p_random.py: p2p_random"]}
{"id": "C56", "title": "The Huang auction in floating point", "statement": "With every operation rounded, Huang's auction keeps: one transaction per bid, within the bid, individually rational, one price per side with sellers' price below buyers' price. What is bought and sold differ by at most a multiple of the rounding unit that is linear in the number of bids. It raises ValueError or returns; in double precision it does raise on tables where the exact auction succeeds (all quantities removed by update_quantity), and the two sides do differ.", "quantifier": "every rounding, order of summation and sorting, all tables of machine numbers", "why_tests_cant": "Error bound over all inputs; the exception needs special quantities.", "anchors": ["pymarket/mechanisms/huang_auction.py: huang_auction, update_quantity"]}
{"id": "C57", "title": "MUDA in floating point", "statement": "With every operation rounded, MUDA keeps: one transaction per bid, never more than the bid's quantity, individually rational, at the price of the other half, nonnegative fees, same exceptions. If sums are left to right (numpy with fewer than eight elements) quantities are nonnegative and each half balances up to a linear multiple of the rounding unit. With numpy's pairwise sums of eight or more elements this fails: sum and cumsum disagree, argmax of an all-False array selects the first bid, so one side of a half can trade ten times as much as the other; quantities can be negative.", "quantifier": "every rounding, order of summation, sorting and split, all tables", "why_tests_cant": "Needs eight or more bids on a side and quantities whose pairwise and running sums differ.", "anchors": ["pymarket/mechanisms/muda_auction.py: muda, solve_market_side_with_exogenous_price, get_trading_bids"]}
{"id": "C58", "title": "The drawn demand and supply curves", "statement": "The figure of plot_demand_curves covers [0, 1.2 * total quantity). The height of the drawn demand at x is the largest price at which more than x is demanded; the height of the drawn supply is the smallest price at which more than x is offered, and past the total supply the best bid times the margin. The drawn curves cross exactly at the competitive quantity. The drawn demand never rises. The drawn supply never falls if and only if no ask exceeds the best bid times the margin; a market is given where it falls at its end.", "quantifier": "all tables with nonnegative quantities and prices, every margin, every sorting of equal prices", "why_tests_cant": "There is no test of the figures; the claim is about every point of the curve and every order of equal prices.", "anchors": ["pymarket/plot/demand_curves.py: plot_demand_curves", "pymarket/bids/demand_curves.py: demand_curve_from_bids, supply_curve_from_bids"]}
{"id": "C59", "title": "The drawn graph of trades", "statement": "After a p2p run with one bid per user, two users are joined exactly when their bids met; the edge labels are the quantities of the buyers' transactions in order and add up to the total bought. Buyers and sellers are on different sides if each user is the identifier of its bid. Not in general: bids that met without trading are joined too, a user with several bids loses labels, and the sides are chosen by bid identifier, so they can be swapped.", "quantifier": "all tables, coefficients and permutations", "why_tests_cant": "There is no test of the figures; the faults need users that are not numbered like their bids, or users with several bids.", "anchors": ["pymarket/plot/trades.py: plot_trades_as_graph", "pymarket/market.py: Market.plot_method"]}
{"id": "C60", "title": "The figures of MUDA and Huang", "statement": "After a MUDA run the panels show the curves of the two halves, which partition the bids, and every transaction of a half is at the line drawn in its panel. After a Huang run with transactions the lines are the buying and selling price and the traded quantity, and the filled area is the money buyers pay and sellers do not get, filled up to 0.01. If nothing is traded a positive area labelled market profit can be drawn all the same.", "quantifier": "all tables, splits, sortings and random choices", "why_tests_cant": "There is no test of the figures; it relates the figure to the transactions for every split and random choice.", "anchors": ["pymarket/plot/muda.py: plot_both_side_muda", "pymarket/plot/huang.py: plot_huang_auction", "pymarket/market.py: Market.plot_method"]}
{"id": "C61", "title": "Time and divisible flag are ignored", "statement": "The outcome of every mechanism is the same if the times and divisible flags of the bids are changed, and for Huang also for any values sampled when bids are merged and any value of the global counter of new users. Hence a bid documented as indivisible is split: there is a market of indivisible bids in which each of the three mechanisms trades a proper part of a bid.", "quantifier": "all markets, mechanisms, random choices and sorts that compare prices only", "why_tests_cant": "It compares all pairs of runs that differ in the ignored attributes.", "anchors": ["pymarket/bids/bids.py: BidManager.add_bid", "pymarket/bids/processing.py: merge_same_price", "pymarket/market.py: Market.run"]}
{"id": "C62", "title": "Change of units", "statement": "If quantities are multiplied by a > 0 and prices by b > 0, p2p and MUDA (with its fees) give the same transactions in the new units, with the same exceptions, and so does the Huang auction. Market.run('huang') does for quantities, and for prices that have at most five decimals in both units, but not in general: a market with trade has none in another unit of price. percentage_traded and percentage_welfare do not depend on the units and profits are multiplied by a*b (or cannot be computed in either unit).", "quantifier": "all markets, units, random choices, solvers and sorts that compare prices only", "why_tests_cant": "It relates the run in one unit to the runs in all others.", "anchors": ["pymarket/mechanisms/p2p_random.py: p2p_random", "pymarket/mechanisms/muda_auction.py: muda", "pymarket/mechanisms/huang_auction.py: huang_auction", "pymarket/bids/processing.py: merge_same_price", "pymarket/transactions/processing.py: split_transactions_merged_players", "pymarket/statistics/profits.py: calculate_profits", "pymarket/statistics/maximum_aggregated_utility.py: percentage_welfare", "pymarket/statistics/maximum_traded_volume.py: percentage_traded"]}
{"id": "C63", "title": "Anonymity", "statement": "Renaming users does not change the outcome of p2p and of Market.run('huang'), even if users are split or joined by it. For MUDA the transactions are the same whenever both runs return; but renaming users to other non-negative numbers can turn a run with trades into an IndexError.", "quantifier": "all markets, renamings, random choices and sorts that compare prices only", "why_tests_cant": "It compares all runs that differ in the names of the users.", "anchors": ["pymarket/mechanisms/p2p_random.py: p2p_random", "pymarket/mechanisms/muda_auction.py: muda", "pymarket/mechanisms/huang_auction.py: huang_auction", "pymarket/bids/processing.py: merge_same_price"]}
{"id": "C64", "title": "Order of submission", "statement": "Market.run('huang') depends neither on the order in which the bids were submitted nor on the sorting algorithm. For p2p every outcome of one order is an outcome of every other order, with the same trades in the same sequence. For MUDA the same holds, with the same split into halves, when the prices of each side differ; with equal prices it is false, as the earlier bid is served.", "quantifier": "all markets, permutations of the bids, random choices and sorts", "why_tests_cant": "It compares all permutations of all bid lists, and for the random mechanisms all outcomes.", "anchors": ["pymarket/market.py: run", "pymarket/mechanisms/huang_auction.py: HuangAuction", "pymarket/mechanisms/p2p_random.py: p2p_random", "pymarket/mechanisms/muda_auction.py: muda"]}
{"id": "C65", "title": "Negative prices", "statement": "With prices of any sign the Huang auction returns, is balanced and feasible, has one price per side with the buyers' price higher, does not cost the auctioneer anything, and no one loses if the prices of one side are not negative. With negative prices on both sides buyers who bid less than 0 can pay 0 and lose, because the demand curve ends at price 0. The price of a half of MUDA exists and can for the same reason be above every bid; MUDA raises only the exceptions of C25.", "quantifier": "all tables with non-negative quantities and prices of any sign, all sorts and coin flips", "why_tests_cant": "It covers all bids of both signs, where the curves need not be monotone; the tests have no negative prices.", "anchors": ["pymarket/mechanisms/huang_auction.py: huang_auction", "pymarket/mechanisms/muda_auction.py: find_competitive_price", "pymarket/mechanisms/muda_auction.py: muda", "pymarket/bids/demand_curves.py: demand_curve_from_bids", "pymarket/bids/demand_curves.py: intersect_stepwise"]}
{"id": "C66", "title": "All prices raised by the same amount", "statement": "If the asks are positive before and after all prices are raised (or lowered) by c, the Huang auction and MUDA give the same trades at prices raised by c and the same fees and exceptions. P2P does so for all prices, except that a meeting without trade keeps the price 0. With asks at 0 it is false: the Huang auction and MUDA can trade only after the prices are raised.", "quantifier": "all tables with non-negative quantities, all c, random choices and sorts that compare prices only", "why_tests_cant": "It relates each run to the runs with all other origins of the price scale.", "anchors": ["pymarket/mechanisms/huang_auction.py: huang_auction", "pymarket/mechanisms/muda_auction.py: find_competitive_price", "pymarket/mechanisms/muda_auction.py: muda", "pymarket/bids/demand_curves.py: demand_curve_from_bids", "pymarket/bids/demand_curves.py: intersect_stepwise", "pymarket/mechanisms/p2p_random.py: p2p_random"]}
{"id": "C67", "title": "Which lies pay in MUDA", "statement": "A person whose bids are on one side and in one half gains nothing by submitting any other bids on this side in this half under any number of names (other prices, other quantities, more or fewer bids), however it uses what it buys or procures what it sells: several names together pay at least the loss they cause to the others. Lies can pay for users with bids on both sides, users with bids in both halves, persons who bid on the other side in the other half under another name, and two users together.", "quantifier": "all bid tables, all sets of other bids and names, all coin flips that put them in the same half", "why_tests_cant": "It compares each run with the runs for all other sets of bids under all names.", "anchors": ["pymarket/mechanisms/muda_auction.py: muda", "pymarket/mechanisms/muda_auction.py: compute_fee", "pymarket/mechanisms/muda_auction.py: solve_market_side"]}
{"id": "C68", "title": "How much of the possible trade is realised", "statement": "The Huang auction trades min(demand above the buying price, supply below the selling price), which is less than the competitive quantity by at most the larger quantity of the two price setters; it loses at most the untraded units times the difference between the highest bid and the lowest ask. If nobody is rationed it keeps at least the same share of the welfare as of the quantity; if all bids have the same quantity exactly one trade is lost. Rationing breaks this: the winner that values the good most may get nothing while winners with lower bids are served. Each half of MUDA is efficient among the bids that accept its price, but the whole may trade nothing although both halves have a price and gains exist; peer to peer trading may realise none of the welfare.", "quantifier": "all bid tables with positive quantities and distinct prices per side (Huang), all bid tables and coin flips (MUDA), against all feasible allocations", "why_tests_cant": "The comparison is with every feasible allocation of every market; a test knows the optimum only for single markets.", "anchors": ["pymarket/mechanisms/huang_auction.py: huang_auction", "pymarket/mechanisms/huang_auction.py: update_quantity", "pymarket/mechanisms/muda_auction.py: solve_market_side", "pymarket/mechanisms/p2p_random.py: p2p_random"]}
{"id": "C69", "title": "Adding and removing bids", "statement": "In the Huang auction the two prices and the set of winners determine the outcome; bids worse than the two price setters may leave and prices, quantity and transactions stay exactly the same. With more bids on one side the competitive quantity does not fall; more buyers never lower the price paid to sellers and more sellers never raise the price paid by buyers. The maximum traded volume and the maximum aggregated utility of the statistics never fall when bids are added; the volume grows by at most the quantity added and the welfare by at most what the new bids would gain by trading all they want at a clearing price of the old bids. It is not true that one more buyer never lowers the competitive price, nor that it never reduces the trade of the Huang auction: it can stop all trade.", "quantifier": "all bid tables with positive quantities and distinct prices per side (Huang), all bid tables with non-negative quantities and all lists of added bids (statistics)", "why_tests_cant": "Each statement compares two runs on two markets of any size; tests run single markets with fixed expected outcomes.", "anchors": ["pymarket/mechanisms/huang_auction.py: huang_auction", "pymarket/bids/demand_curves.py: intersect_stepwise", "pymarket/statistics/maximum_traded_volume.py: maximum_traded_volume", "pymarket/statistics/maximum_aggregated_utility.py: maximum_aggregated_utility", "pymarket/mechanisms/muda_auction.py: find_competitive_price"]}
{"id": "C70", "title": "Market.run(\"huang\") in floating point", "statement": "In any rounded arithmetic, and in particular in double precision, running the Huang mechanism through the market - merging the bids of equal rounded price, clearing the merged table, splitting the merged transactions in proportion to the quantities - either raises a ValueError (or the KeyError of C84), or gives every bid at most one final, non-negative transaction. Merging still puts every bid in exactly one group with one rounded price per side. Nobody trades at a price worse than its own unrounded price, whatever the size of the prices, and strictly better up to prices of 10^10 in double precision. A bid alone at its rounded price trades at most its quantity; a merged bid exceeds it by at most two roundings when both libraries sum its group alike and by one more per addition otherwise. The shares of a merged transaction of k bids add up to it within 3k+5 roundings, and what is bought differs from what is sold by at most 9n+12 roundings of the total quantity of n bids (n up to 10^15 in double precision). The exact statements fail: a merged bid can get more than its quantity, more can be bought than sold, and the run can raise where the exact one returns.", "quantifier": "all roundings (monotone, idempotent, odd; bounded relative error where stated), all summation orders of the two libraries, all bid tables with positive machine quantities and non-negative prices, all sorting algorithms and samples", "why_tests_cant": "Tests compare a few runs with tolerances; the bounds are about every table size, every summation order and every pattern of rounding errors, and the failures occur only for particular quantities.", "anchors": ["pymarket/bids/processing.py: merge_same_price", "pymarket/transactions/processing.py: split_transactions_merged_players", "pymarket/mechanisms/mechanism.py: Mechanism.run", "pymarket/mechanisms/huang_auction.py: huang_auction", "pymarket/market.py: Market.run"]}
{"id": "C71", "title": "What the helpers raise, exactly", "statement": "update_quantity returns exactly when there are quantities and the gap is at most their sum, whatever the signs, and raises ValueError otherwise. intersect_stepwise, on any arrays without NaN abscissae, sorted or not, raises ValueError if an array is empty, TypeError if an abscissa is negative, and returns otherwise. Writing the fees of one half of MUDA raises IndexError exactly when a charged user is not a python index of the fee array; a negative user number writes to the end of the array and of two users with one entry the later one wins. split_transactions_merged_players raises what the first transaction raises that cannot be split: KeyError for a bid that is not in the mapping, IndexError for a mapped row that is not in the table, AttributeError for fees with a group of two or more, 0/0 for a group without quantity. The two linear programs raise IndexError exactly when a label of the table is not a position. generate divides by zero exactly when the step is zero, or negative with no bids requested.", "quantifier": "all lists of quantities and gaps, all pairs of arrays, all users and fee arrays, all transactions, tables and mappings, all solvers, all numbers of bids and steps", "why_tests_cant": "Both directions are claimed for every input: no error outside the stated set and the stated error on all of it; tests cover no error paths of these functions.", "anchors": ["pymarket/mechanisms/huang_auction.py: update_quantity", "pymarket/bids/demand_curves.py: intersect_stepwise", "pymarket/mechanisms/muda_auction.py: solve_market_side", "pymarket/transactions/processing.py: split_transactions_merged_players", "pymarket/statistics/maximum_traded_volume.py: maximum_traded_volume", "pymarket/statistics/maximum_aggregated_utility.py: maximum_aggregated_utility", "pymarket/datasets/uniform_bidders.py: generate"]}
{"id": "C72", "title": "The statistics in floating point", "statement": "calculate_profits, percentage_traded and percentage_welfare in rounded arithmetic, for any order of additions. The profit of a user with n transactions differs from the exact one by at most (1+e)^(n+1)-1 times its gains and losses without signs; the profit of the market maker and the sum of all profits satisfy similar bounds, and so do the two ratios for a given optimum. If no transaction is at a loss then every computed profit is exactly nonnegative; this covers Market.run(\"huang\"), MUDA with left-to-right sums and peer to peer with coefficient 1/2. After peer to peer the computed profit of the market maker is exactly 0. With another coefficient a player can lose, after Market.run(\"huang\") the market maker can lose (the computed profit is at least the price difference times the quantity sold less the stated errors), and percentage_traded can exceed 1: double precision runs show each.", "quantifier": "all roundings that are monotone, odd and idempotent, all orders of additions, all tables with distinct labels, all lists of transactions, all reservation prices and fees", "why_tests_cant": "Tests compare a few rounded values with a tolerance; the bounds and the exact signs hold for every table, every list of transactions and every summation order.", "anchors": ["pymarket/statistics/profits.py: calculate_profits", "pymarket/statistics/profits.py: get_gain", "pymarket/statistics/maximum_traded_volume.py: percentage_traded", "pymarket/statistics/maximum_aggregated_utility.py: percentage_welfare"]}
{"id": "C73", "title": "The mechanisms raise documented exceptions, and only when stated, on any table", "statement": "BidManager does not check quantities or user numbers. For any table: the Huang auction raises TypeError if the quantities of the first buyers by price, or of the first sellers, ever add up to less than 0, and returns otherwise. MUDA on a table with distinct labels raises NotImplementedError if a user repeats a price on a side; otherwise TypeError if one of the halves is overdrawn in that sense; otherwise IndexError if a user who would pay a fee has a number that is not an index of the fee array (python indexing, as many entries as users); otherwise it returns. Peer to peer raises IndexError if a buyer and a seller exist and one of the labels is not a position; otherwise it returns and every meeting has two matching transactions. The uniform price mechanism of the documentation raises only TypeError.", "quantifier": "all tables with quantities and prices of any sign, all user numbers, all sorting orders of equal prices, all coin flips and random draws", "why_tests_cant": "The claim is that no other exception and no endless loop occurs on any table, including ones no test author thinks of.", "anchors": ["pymarket/mechanisms/huang_auction.py: huang_auction", "pymarket/mechanisms/muda_auction.py: muda", "pymarket/mechanisms/muda_auction.py: solve_market_side", "pymarket/mechanisms/p2p_random.py: p2p_random", "pymarket/bids/demand_curves.py: intersect_stepwise"]}
{"id": "C74", "title": "Market.run on stored bids of any sign", "statement": "Market.run('huang') on any stored bids: without buyers or without sellers the result is empty (KeyError if all bids are bids to buy at one rounded price, C84); otherwise TypeError is raised if, with prices rounded to five decimals, some bid together with the bids of its side that are at least as good adds up to less than 0; otherwise the auction of the merged bids returns, and the run divides zero by zero (quantities that are not numbers, NaNProduced in the model) exactly if one of its transactions is on a merged bid whose quantities add up to 0. If no quantity is negative, every result is balanced and feasible, has one price per side, the price of the buyers is higher, and only buyers who bid less than 0 can lose, by paying 0. If also prices are not negative and asks positive, the division by zero happens exactly if a bid that is better than the marginal bids of its side has a group of total quantity 0; in particular anybody can spoil a market that trades, for every tie order and draw, by adding a bid for nothing at a winning price nobody else names. Market.run('p2p') never fails, and a run that fails leaves the market as it was.", "quantifier": "all markets with bids of any sign, all sorting orders of equal prices, all samples and user counters", "why_tests_cant": "Zero and negative quantities are not in the test data, and the claim is an exact characterisation over all markets.", "anchors": ["pymarket/market.py: Market.run", "pymarket/mechanisms/mechanism.py: Mechanism.run", "pymarket/mechanisms/huang_auction.py: huang_auction", "pymarket/transactions/processing.py: split_transactions_merged_players", "pymarket/bids/processing.py: merge_same_price"]}
{"id": "C75", "title": "Huang market runs depend only on the aggregated book", "statement": "For Market.run('huang'), two markets whose bids, with prices rounded to five decimals, have the same levels (side and price) and the same total quantity at each level fail with the same exception, or both return the same prices and total; every bid then trades a multiple of its quantity that depends only on its level and is the same in both markets, and all transactions have the buyers' or the sellers' price. In particular replacing a bid by several bids of the same side and the same rounded price with the same total quantity is neutral: everybody else trades exactly what they traded, and the pieces trade together what the bid traded, at the same prices. No sign is assumed for quantities or prices.", "quantifier": "all pairs of markets with the same book, all tie orders, samples and user counters on either side", "why_tests_cant": "It relates two runs on arbitrary different tables, with independent random draws and tie orders.", "anchors": ["pymarket/market.py: Market.run", "pymarket/mechanisms/mechanism.py: Mechanism.run", "pymarket/mechanisms/huang_auction.py: huang_auction", "pymarket/bids/processing.py: merge_same_price", "pymarket/transactions/processing.py: split_transactions_merged_players"]}
{"id": "C76", "title": "Uniform price mechanism of the documentation in floating point", "statement": "In rounded arithmetic (double precision included) every run of the uniform price mechanism gives each bid at most one transaction, of at most its quantity, all at the computed competitive price, and nobody trades at a price worse than its bid. With buyers and sellers it raises TypeError exactly if the computed curves do not cross. If numpy's sums are the running sums, in particular in double precision with less than eight bids, no quantity is negative and bought and sold quantity differ by at most (2n u(1+u)^n + u) times the total quantity; with any order of summation quantities may be negative and bought and sold differ, but only by explicit multiples of n u (1+u)^n times the total quantity. Both errors do happen in double precision: with eight buyers a seller is given a negative quantity, and with three bids more is bought than sold. Without rounding it is the exact mechanism.", "quantifier": "all roundings and orders of summation, all bid tables with non-negative quantities and prices, all sorting orders of equal prices", "why_tests_cant": "A negative quantity needs a particular pattern of rounding errors in numpy's pairwise summation, and the bounds are over all tables.", "anchors": ["docs/new_mechanism.ipynb: uniform_price_mechanism", "pymarket/bids/demand_curves.py: intersect_stepwise"]}
{"id": "C77", "title": "Buyers and sellers are treated alike", "statement": "Take the mirror image of a market: every buyer becomes a seller, every seller a buyer and a price p becomes M - p, all prices lying strictly between 0 and M. If the orders of equal prices correspond, or the prices on each side are different, then the competitive price of the image is the image of the competitive price; the Huang auction exchanges its two prices and makes the mirror images of the same transactions; MUDA with the same flips has the mirror images of prices and transactions, and the same order, fees and exceptions unless a half trades with both sides equally long; the uniform price mechanism of the documentation has the same quantity, the image of the price and the images of the transactions; the peer to peer mechanism with coefficient 1 - c reaches exactly the mirror images of its results, for any prices. Everybody gains the same. Two outputs do distinguish the sides: the quantity that the Huang auction reports when nothing is traded, and MUDA's fees when the sides of the right half are equally long (buyers then count as the long side and their fees are overwritten).", "quantifier": "all bid tables with non-negative quantities and prices in (0, M), all M, all sorting orders, all flips, all coefficients and random sequences", "why_tests_cant": "A bias towards one side shows only when a market is compared with its mirror image over all tables, sorting orders and random sequences; the two exceptions need a tie or a market without trade.", "anchors": ["pymarket/mechanisms/huang_auction.py: huang_auction", "pymarket/mechanisms/muda_auction.py: solve_market_side", "pymarket/mechanisms/p2p_random.py: p2p_random", "pymarket/bids/demand_curves.py: intersect_stepwise"]}
{"id": "C78", "title": "The mechanisms compared on the same bids", "statement": "For every table of bids there is a largest quantity c that can change hands at one price (the maximum over prices of the smaller of demand and supply). The uniform price mechanism of the documentation trades exactly c; the Huang auction, plain or run by the market with merging, and MUDA with any flips trade at most c; every run of the peer to peer mechanism trades at least c and at most 2c, and both ends are reached; nothing that agreeing bids and asks can trade exceeds 2c. Hence neither the Huang auction nor MUDA trades more, or has a larger percentage_traded, than any peer to peer run, and two peer to peer runs differ by a factor of at most two. MUDA may trade more or less than the Huang auction. Against the uniform price mechanism the Huang auction trades no more of any bid, whoever trades is served in full at a price at least as good, and no user gains more; in MUDA and peer to peer a user may gain more.", "quantifier": "all bid tables with positive quantities and non-negative prices, all sorting orders, flips, coefficients in [0, 1] and random sequences", "why_tests_cant": "The order between mechanisms concerns all markets and all random choices; single runs only show examples, and the factor of two is reached only by particular pairings.", "anchors": ["pymarket/mechanisms/huang_auction.py: huang_auction", "pymarket/mechanisms/muda_auction.py: muda", "pymarket/mechanisms/p2p_random.py: p2p_random", "pymarket/statistics/maximum_traded_volume.py: percentage_traded", "docs/new_mechanism.ipynb: uniform_price_mechanism"]}
{"id": "C79", "title": "What depends only on the order of the prices", "statement": "Replace every price p by h(p), where h is strictly increasing and keeps 0. The Huang auction then makes the same transactions with its two prices replaced by their images and reports the same quantity and exceptions; the peer to peer mechanism with the same random numbers makes the same transactions up to the prices, in the same rounds; the uniform price mechanism of the documentation trades the same quantities of the same bids; the linear program of the largest volume is the same, so percentage_traded of these mechanisms does not change for any solver. MUDA takes means of prices, and even its quantity may change.", "quantifier": "all bid tables, all strictly increasing h with h(0) = 0, all sorting orders that look only at prices, all coefficients and random sequences, all solvers", "why_tests_cant": "Invariance under every increasing transformation of every table cannot be sampled; a comparison of price differences slipped into a mechanism would only show for particular scales.", "anchors": ["pymarket/mechanisms/huang_auction.py: huang_auction", "pymarket/bids/demand_curves.py: intersect_stepwise", "pymarket/mechanisms/p2p_random.py: p2p_random", "pymarket/statistics/maximum_traded_volume.py: maximum_traded_volume", "pymarket/mechanisms/muda_auction.py: find_competitive_price"]}
{"id": "C80", "title": "The chances of the peer to peer mechanism", "statement": "Let every random choice take one of M equally likely values, where M is divisible by every possible number of candidate pairs (a fair r.choice). Then p2p_random ends with a given finished list of rounds with exactly the product, over its meetings, of one over the number of pairs that could still be drawn; every possible list of rounds has a positive chance and every other list has chance 0. Every buyer meets every seller first with chance 1/(number of pairs), and in the first round with chance 1/(number of bids of the larger side). Submitting the same bids in another order does not change the chances (up to the labels), and two bids of the same side, price and quantity have the same chances. If all bids have the same quantity and all prices are compatible, the average money of a bid is the sum over its partners of what they would exchange, over the size of the larger side.", "quantifier": "all tables with quantities not below 0, all coefficients, all M that are fair, all lengths of the draw sequence that suffice, all bids and pairs", "why_tests_cant": "Exact chances over all outcomes of the generator can only be estimated by runs; a small bias (an index that favours one pair, a mask that is one entry off) is invisible in a finite sample, and independence of the order of submission concerns every permutation.", "anchors": ["pymarket/mechanisms/p2p_random.py: p2p_random", "pymarket/market.py: run"]}
{"id": "C81", "title": "MUDA on average over its random split", "statement": "r.rand() > 0.5 has the chance (2^52-1)/2^53. If every flip comes out differently the halves change places and the same trades are made at the same prices, so averages that do not depend on the order of the halves are the same when the chances are exchanged. A user with one bid has the largest average utility with its true price and quantity, and a truthful user does not lose on average; but a user with two bids on one side can gain by a lie on average, whatever the chance of a flip, and so can a user with a bid and an ask. Something is traded with at most the chance that neither all buyers nor all sellers are in one half, (1-p^b-(1-p)^b)(1-p^s-(1-p)^s), so never with a single buyer or seller; the bound is the exact chance if all buyers bid the same and all sellers ask the same. When prices of each side differ, averages do not depend on the order of submission; of two equal bids the first can have the larger average.", "quantifier": "all tables (prices and quantities not below 0), all users and misreports, all chances p of a flip, all sorting orders, all permutations of the bids, all functions of the result that respect the symmetry", "why_tests_cant": "Averages over 2^n splits are out of reach of sampling for exact comparison; whether a lie pays on average and the exact chance of trade cannot be decided by finitely many seeded runs.", "anchors": ["pymarket/mechanisms/muda_auction.py: muda", "pymarket/mechanisms/muda_auction.py: solve_market_side", "pymarket/mechanisms/muda_auction.py: find_competitive_price", "pymarket/market.py: run"]}
{"id": "C82", "title": "MUDA fees in floating point are externalities up to rounding", "statement": "In arithmetic that rounds with a relative error of at most u, and while sums are taken from left to right (in numpy: fewer than 7 bids on each side), each half has a side that is the longer one up to eps = (k+3) u (1+u)^(k+4) times the quantity of the half. Whoever trades there is charged what its presence costs the others at the given price, with an error of at most 5 eps times the largest distance of a bid from the price, and never more than its own gain plus 7 eps times that distance; nobody else is charged. With u = 0 the fee is exactly the externality and at most the gain. With eight bids on a side numpy's pairwise sum differs from the running sum, and in double precision a seller is charged more than six times what it gains.", "quantifier": "all roundings with a relative error bound, all tables with distinct labels, representable quantities not below 0 and users not below 0, all splits, all sorting orders", "why_tests_cant": "Tests with a tolerance cannot bound the error for every table, and the cut-off after eight bids only shows for particular quantities.", "anchors": ["pymarket/mechanisms/muda_auction.py: compute_fee", "pymarket/mechanisms/muda_auction.py: solve_market_side", "pymarket/mechanisms/muda_auction.py: get_trading_bids"]}
{"id": "C83", "title": "Double precision makes no error on dyadic data of moderate size", "statement": "If all quantities are multiples of 2^a with a total of at most 2^(a+53), and all prices are multiples of 2^b and small enough (at most 2^(b+51), and times the total quantity at most 2^(a+b+51)), then in double precision MUDA, peer to peer trading (with a dyadic weight such as 1/2) and the uniform price mechanism of the documentation return exactly the transactions, prices and fees of exact arithmetic, in whatever order sums are computed; in particular for whole numbers. calculate_profits is exact on such transactions and the shares of the optimum are rounded only once. Huang's auction divides: the same bids trade at the same prices, with each quantity wrong by at most 2^-52 times that of the bid (no assumption on the sizes of prices), and without any error if the number of bids divides the step of the quantities. For any rounding the curves list the same labels and prices. For tenths the results differ, and for whole numbers beyond 2^53 too.", "quantifier": "all tables of multiples of powers of two within the bounds, all sorting orders, splits, random choices and summation orders", "why_tests_cant": "The tests of the repository use small whole numbers and compare with exact values; they cannot show for which inputs such agreement is guaranteed.", "anchors": ["pymarket/mechanisms/muda_auction.py: muda", "pymarket/mechanisms/p2p_random.py: p2p_random", "pymarket/mechanisms/huang_auction.py: huang_auction", "pymarket/mechanisms/huang_auction.py: update_quantity", "pymarket/statistics/profits.py: calculate_profits", "pymarket/bids/demand_curves.py: intersect_stepwise", "docs/new_mechanism.ipynb: uniform_price_mechanism"]}
{"id": "C84", "title": "Market.run('huang') raises KeyError exactly on bids to buy at a single price", "statement": "When one side of a market is empty, merge_same_price returns a table whose buying column holds floats, so that bids.loc[bids['buying']] in Mechanism._run looks up row labels instead of selecting rows. Hence Market.run('huang') raises KeyError exactly if the market has bids, all of them are bids to buy, and all have the same price after rounding to five decimals; in particular for every market with a single bid to buy. The documented claim that a market in which everyone is buying gets an empty result is false there, and true for every other market with one side and for every other mechanism; a market with sellers only never fails. The market is left as it was. An ask or a bid at another rounded price repairs such a market, a bid at the same rounded price does not. The same holds in rounded arithmetic.", "quantifier": "all markets, with bids of any sign, all sorting orders, samples and user counters; all roundings", "why_tests_cant": "The documentation tests only the case of two different prices; the claim is about exactly which markets fail.", "anchors": ["pymarket/mechanisms/mechanism.py: Mechanism._run", "pymarket/bids/processing.py: merge_same_price", "pymarket/market.py: Market.run"]}
{"id": "C85", "title": "Market.statistics raises ValueError exactly if nothing was traded and the profits are not excluded", "statement": "calculate_profits applies get_gain to the rows of the joined table; without rows DataFrame.apply returns an empty table, and assigning it to the column gain raises ValueError. So calculate_profits raises exactly if no transaction belongs to a bid of the table, whatever the reservation prices and fees, also in rounded arithmetic. After any sequence of sensible calls Market.statistics raises exactly if there is no transaction and 'profits' is not excluded: in particular always before the first run, and after a Huang auction with one buyer and one seller, although that run succeeds. The caller's dictionary of reservation prices has been filled by then, the market is unchanged. With 'profits' excluded the two shares are returned, both 0 or None. After a peer to peer run it is raised only if the market has one side, because meetings without trade are transactions of quantity 0.", "quantifier": "all tables, transactions, reservation prices and fees; all markets reached by sensible calls, all exclusion lists, solvers and roundings", "why_tests_cant": "The tests compute statistics only for markets with trade; the claim is about exactly which call sequences fail.", "anchors": ["pymarket/statistics/profits.py: calculate_profits", "pymarket/market.py: Market.statistics"]}
{"id": "C86", "title": "What the parts of the mechanisms raise in rounded arithmetic, and exactly when", "statement": "For every rounding: update_quantity raises ValueError exactly if taking equal rounded shares of the gap, smallest quantity first, uses up all quantities, and otherwise returns as many quantities as it was given; intersect_stepwise raises in the same cases as in exact arithmetic (ValueError for an empty curve, otherwise TypeError for a negative abscissa); get_trading_bids raises IndexError exactly on a table without bids; writing the fees raises IndexError exactly if a user number is not an index of the fee array; p2p_random raises IndexError if a bid of a pair has a label that is not a position; splitting raises what the first transaction that cannot be split raises (KeyError for a bid outside the mapping, IndexError for a mapped row outside the table, a NaN for a group whose rounded sum is 0). The side, time and divisibility of a merged bid can be any combination of those of its members.", "quantifier": "all roundings, adders, curves, tables, mappings, transactions, quantities and gaps", "why_tests_cant": "The tests use a few decimal numbers inside the preconditions; the claim is about every rounding and every input outside them.", "anchors": ["pymarket/mechanisms/huang_auction.py: update_quantity", "pymarket/bids/demand_curves.py: intersect_stepwise", "pymarket/mechanisms/muda_auction.py: get_trading_bids, solve_market_side_with_exogenous_price", "pymarket/mechanisms/p2p_random.py: p2p_random", "pymarket/transactions/processing.py: split_transactions_merged_players", "pymarket/bids/processing.py: merge_same_price"]}
{"id": "C87", "title": "Rounding changes neither who trades nor the prices if sums of the two sides are not close", "statement": "Let every rounding have relative error at most u and let e be (2n+6) u (1+u)^(2n) times the total quantity of the n bids. If every quantity exceeds e, and so does every difference between what some best buyers ask for and some best sellers offer, then the Huang auction (u < 1) in rounded arithmetic makes the same transactions as in exact arithmetic (same bids, order, prices), in quantities that differ by at most e, and reports the same prices; the competitive price is the same number; the uniform price mechanism makes the same transactions at the same price in quantities that differ by at most e; MUDA, if its halves are separated, forms the same halves, prices and transactions, in quantities that differ by at most e. Without the separation this is false: for buyers of 0.1 and 0.9 and a seller of 1 the double precision auction makes no trade where the exact one makes two.", "quantifier": "all roundings with relative error u, adders, sorts and tables with non-negative machine quantities (non-negative prices for MUDA and the uniform price)", "why_tests_cant": "Tests compare a few printed numbers; that accumulated rounding in cumulated sums, comparisons and rationing never flips a decision is a claim about all tables and all summation orders.", "anchors": ["pymarket/mechanisms/huang_auction.py: huang_auction, update_quantity", "pymarket/mechanisms/muda_auction.py: muda, solve_market_side_with_exogenous_price, get_trading_bids, find_competitive_price", "pymarket/bids/demand_curves.py: demand_curve_from_bids, supply_curve_from_bids, intersect_stepwise", "docs/new_mechanism.ipynb: uniform_price_mechanism"]}
{"id": "C88", "title": "Rounding does not change who meets and trades in peer to peer trading if sums of the two sides are not close", "statement": "Let every rounding have relative error at most u and let e be n u times the total quantity of the n bids. If every quantity exceeds e and so does every difference between the sum of some quantities to buy and the sum of some quantities to sell, then for the same random choices peer to peer trading in rounded arithmetic has the same pairs in the same rounds as in exact arithmetic, every transaction has the same bid, partner and active flag, its quantity differs by at most e and its price by at most (1+u)^3 - 1 times the price. Without the separation this is false: a buyer of 1 who buys 0.1 and then 0.9 in double precision leaves the last seller with nothing, in exact arithmetic with a positive rest that keeps the bid active.", "quantifier": "all roundings with relative error u, adders, tables with positional labels, non-negative prices and non-negative machine quantities, coefficients between 0 and 1, and random choices", "why_tests_cant": "Tests fix a seed and a few decimals; the claim is about every sequence of meetings, along which rounding errors accumulate.", "anchors": ["pymarket/mechanisms/p2p_random.py: p2p_random"]}
{"id": "C89", "title": "The bounded exponents of double precision change nothing for prices and quantities of ordinary sizes", "statement": "Let binary64 be rounding to nearest, ties to even, with gradual underflow below 2^-1022 and a largest number. It agrees with the rounding with unbounded exponents on all numbers of at most the largest that are normal or multiples of 2^-1074, in particular on all sums and differences of doubles that do not overflow; its error is at most 2^-53 times the number or 2^-1075. For quantities and prices that are multiples of powers of two in the stated ranges MUDA, peer to peer trading, the uniform price mechanism and the profits are those of exact arithmetic, and Huang's auction has the same bids, prices and up to 2^-52 of each bid the same quantities; this covers whole numbers. Peer to peer trading at the mean of two prices runs as with unbounded exponents for all non-negative quantities and for prices that are zero or at least 2^-1021, and so nobody trades at a loss. For smaller prices this is false: a seller who asks the smallest positive double for one unit gets nothing.", "quantifier": "all roundings' arguments, all ways to sum, all orders of ties, all tables of the stated kind, all random choices", "why_tests_cant": "Tests use numbers of ordinary size; the claim is about every number in the range and about the edge of it.", "anchors": ["pymarket/mechanisms/p2p_random.py: p2p_random", "pymarket/mechanisms/huang_auction.py: huang_auction", "pymarket/mechanisms/muda_auction.py: muda", "pymarket/statistics/profits.py: calculate_profits"]}
{"id": "C90", "title": "How large the result of a run can be", "statement": "Peer to peer trading ends after at most one round fewer than there are bids. In a round there are at most as many meetings as buyers and as sellers, no pair meets twice, every meeting makes two transactions, so there are at most twice as many transactions as pairs of a buyer and a seller. Fewer meetings than there are bids end with a trade; this holds for every rounding of the arithmetic. Huang's auction and MUDA make at most one transaction per bid, so their result is not longer than the table. The bounds for peer to peer trading are reached.", "quantifier": "all tables with non-negative quantities, all random choices, all roundings (for the number of trades), all orders of ties", "why_tests_cant": "A test sees the length of one result; the claim bounds the length for all tables and all random choices.", "anchors": ["pymarket/mechanisms/p2p_random.py: p2p_random", "pymarket/mechanisms/huang_auction.py: huang_auction", "pymarket/mechanisms/muda_auction.py: muda", "pymarket/market.py: Market.run"]}
{"id": "C91", "title": "The roundings of the model are rounding to nearest, ties to even", "statement": "Every result of the rounding binary64 is a finite number of IEEE 754 binary64 (53 significant bits, exponents of the last bit from -1074 to 971). No such number is nearer to the exact value, and if another one is as near the result is the one whose last bit is zero. The rounding f64 has the same property for unbounded exponents. Only one function has the property, and the values it does not change are the numbers of the format.", "quantifier": "all rational numbers, all formats with 53 significant bits", "why_tests_cant": "A test compares finitely many sums; the claims about double precision rest on the rounding of every value.", "anchors": ["pymarket/mechanisms/p2p_random.py: p2p_random", "pymarket/mechanisms/huang_auction.py: update_quantity", "pymarket/mechanisms/muda_auction.py: get_trading_bids", "pymarket/statistics/profits.py: get_gain"]}
{"id": "C92", "title": "A bid that offers a better price does not trade less", "statement": "If one bid is replaced by one with a better price and at least the same quantity, all else equal, then it trades at least as much as before in MUDA with the same flips (and at the same price) and in the uniform price mechanism. Offering only more does not reduce its trade either when no other bid of its side names its price. In the Huang auction on distinct prices a better price for the same quantity does not reduce its trade, and if the bid had won already neither the two prices nor the trade of anybody changes. It fails in three cases: offering more in the Huang auction can make the bid the price setter, so that it trades nothing; in the Huang auction run by the market a bid that leaves a price shared with others for a better one can lose all its trade; in peer to peer trading with the same draws a better price can lead to less trade.", "quantifier": "all tables, bids and improvements, flips and sorting algorithms", "why_tests_cant": "A test compares a few pairs of bids; the claim is about every improvement of every bid, and the failures need particular quantities.", "anchors": ["pymarket/mechanisms/muda_auction.py: solve_market_side", "pymarket/mechanisms/muda_auction.py: get_trading_bids", "pymarket/mechanisms/huang_auction.py: huang_auction", "pymarket/mechanisms/huang_auction.py: update_quantity", "pymarket/mechanisms/p2p_random.py: p2p_random", "docs/new_mechanism.ipynb: uniform_price_mechanism"]}
{"id": "C93", "title": "Competitive equilibrium, envy and blocking groups", "statement": "Uniform price mechanism (positive quantities, non-negative prices, unique labels): for every price p0 that balances demand and supply, every bid trades all of its quantity if it gains at p0 and nothing if it loses at p0. At the price p of the mechanism itself this holds if and only if p balances demand and supply, equivalently if on both sides the bids strictly better than p offer at most the quantity traded; it does so on distinct prices with positive asks whenever one of the two marginal bids is only partly used. In that case no bid would gain more with the transaction of another bid (as far as its quantity allows), and no group of bids could gain more in total by trading among themselves. When both marginal bids are used up the price is the middle of their prices and both statements can fail, even on distinct prices. Huang auction on distinct prices: no bid wants the transaction of a bid of its own side that offers no more than itself; it may want that of one that offers more; whenever there is a price, the two bids that set the prices gain nothing and would gain by trading with each other. MUDA: within a half, no bid wants the transaction of a bid of its side with a strictly smaller gain per unit, and no bid of the short side wants any transaction of the half; a bid may want that of a better bid, and pairs may do better on their own. Random meetings: a bid may want the transaction of a bid identical up to the user, and pairs may do better on their own.", "quantifier": "for all tables of bids, sorting algorithms, flips, clearing prices, bids, transactions, groups of bids and quantities traded within the group", "why_tests_cant": "The claims quantify over all groups of bids and all ways to trade within a group, and over all clearing prices; the exact condition separates tables that differ in arbitrarily small amounts of quantity.", "anchors": ["docs/new_mechanism.ipynb: uniform_price_mechanism", "pymarket/mechanisms/huang_auction.py: huang_auction", "pymarket/mechanisms/huang_auction.py: update_quantity", "pymarket/mechanisms/muda_auction.py: muda", "pymarket/mechanisms/muda_auction.py: solve_market_side", "pymarket/mechanisms/p2p_random.py: p2p_random", "pymarket/bids/demand_curves.py: intersect_stepwise"]}
{"id": "C94", "title": "One bid sent as several, possibly under other names", "statement": "Pieces of a bid are bids of the same side and price with positive quantities that add up to it. MUDA: if a user sends one bid as two pieces, the second under a new user name, the two names together keep (profit minus fee) at most what the user kept before, provided that both pieces and all bids of the user are on one side and drawn to one half, and the other bids are drawn as before; every other user whose bids are all on one side and in that half keeps exactly the same. If the pieces are drawn to different halves the two names can keep more. Uniform price mechanism with distinct prices, positive quantities and positive asks: cutting a bid into any number of pieces leaves the traded quantity, the quantity of every other bid and the total quantity of the pieces unchanged; the price is unchanged unless the bid was served in part, in which case it may move from the bid's own price to the middle of the two marginal prices, which favours the pieces (so cutting never hurts and sometimes pays). Random meetings: with fair draws, sending a bid as two or more pieces lowers the chance of every single pair to be the first to meet, and raises the chance that one of the pieces is the first to meet a given partner if there is another bid on that side.", "quantifier": "for all tables of bids, sorting algorithms, flips, bids and ways to cut them into pieces, and all fair random generators", "why_tests_cant": "It compares two runs on tables related by an arbitrary cut of an arbitrary bid; the price changes only if one of the pieces ends exactly at the traded quantity, and the comparison for MUDA holds for every price of the other half.", "anchors": ["pymarket/mechanisms/muda_auction.py: solve_market_side", "pymarket/mechanisms/muda_auction.py: muda", "docs/new_mechanism.ipynb: uniform_price_mechanism", "pymarket/bids/demand_curves.py: intersect_stepwise", "pymarket/mechanisms/p2p_random.py: p2p_random"]}
{"id": "C95", "title": "Peer to peer trading on any numbers; NaN and infinite values", "statement": "The peer to peer mechanism is modelled once for any type of numbers and any operations on them (nothing is assumed about comparison, minimum, subtraction, sum and price rule); on exact and on rounded rationals it is the model of the other properties. For every such arithmetic and every table with labels 0..n-1 a run raises nothing and ends; its rounds and transactions are exactly those of a declarative description (rounds of disjoint buyer-seller pairs that did not meet before and have something left, maximal, each pair dealing iff the comparison of prices says so), and every such history is possible. Related numbers give related runs; who meets and how much is traded depends on the prices only through their comparisons, and never on p_coef, even if that is NaN. In IEEE 754 doubles and in rationals with infinities: if one quantity is NaN nobody meets and there are no transactions at all; a bid whose price is NaN meets others but all its transactions are zero. With one infinite quantity and otherwise finite non-negative ones, the bid stays infinite and every bid of the other side with an acceptable price is served in full. Two infinite bids that deal with each other end the run after that round, for everybody, and have NaN left. The price of a deal with infinite prices is infinite or NaN, in cases decided by p_coef.", "quantifier": "for all types of numbers with any operations, all tables, coefficients and random sequences; NaN and infinite values for IEEE doubles (SpecFloat) and for rationals with infinities", "why_tests_cant": "It quantifies over every arithmetic, so it covers overflow, underflow, NaN, any rounding and any order of summation at once; tests use a few doubles.", "anchors": ["pymarket/mechanisms/p2p_random.py: p2p_random", "pymarket/transactions/transactions.py: TransactionManager.add_transaction"]}
{"id": "C96", "title": "IEEE 754 doubles compute what the rounded model computes", "statement": "For the binary64 arithmetic of Coq's Floats.SpecFloat (53 bits, exponents of binary64, subnormal numbers, overflow to infinity) and all finite doubles in canonical form: the sum, difference, product and quotient (by a number other than zero) is the rounding binary64 of the exact result whenever that is below 2^1024 - 2^970 in size, and the infinity of its sign from there on; comparisons are those of the values; the double of an exact result exists and is unique up to the sign of zero. Hence peer to peer trading executed on doubles (quantities not negative, prices at most 2^1022 in size, p_coef in [0,1], numpy's pairwise sum, which may overflow) has the same rounds and the same transactions, value for value, as the rounded model of the other properties; on tables whose values are multiples of powers of two of moderate size it has those of the exact model; and at p_coef 1/2 with prices zero or at least 2^-1021 no double a buyer pays exceeds its own price and none a seller gets is below its own.", "quantifier": "for all pairs of finite doubles; all tables of such doubles, all coefficients in [0,1], all random sequences", "why_tests_cant": "There are 2^128 pairs of doubles; the errors of a wrong rounding (ties, double rounding, subnormal results, overflow) sit on a vanishing part of them.", "anchors": ["pymarket/mechanisms/p2p_random.py: p2p_random"]}
{"id": "C97", "title": "The auctions and the statistics, run on IEEE 754 doubles, are the rounded model", "statement": "Huang's auction, MUDA, the uniform price mechanism of the documentation, the profits and the two percentages, executed with the four operations of IEEE 754 doubles (Floats.SpecFloat, with overflow to infinity) and numpy's pairwise sums, give exactly the result of the rounded model in which every operation is an exact one followed by the rounding binary64. This holds for all tables of doubles with quantities of at most 2^a, prices of at most 2^b in size, a + b <= 800 and at most 2^40 bids, and then no operation overflows: the value given to an infinite result does not matter. So the statements of the other properties about rounded arithmetic are statements about doubles. With whole numbers (total T and prices P with P T <= 2^51) MUDA and the uniform price mechanism on doubles return what exact arithmetic returns, Huang's auction up to a relative error 2^-53 of a quantity. With quantities of 2^1023 the agreement fails.", "quantifier": "all tables of doubles of these sizes (unique labels for MUDA and the statistics), all orders of ties, all coin tosses, all values of an infinite result", "why_tests_cant": "A test runs the doubles of one table; the claim is that for no table of these sizes an intermediate sum, product or share overflows or is rounded otherwise than in the model.", "anchors": ["pymarket/mechanisms/huang_auction.py: huang_auction", "pymarket/mechanisms/huang_auction.py: update_quantity", "pymarket/mechanisms/muda_auction.py: muda", "pymarket/mechanisms/muda_auction.py: compute_fee", "pymarket/bids/demand_curves.py: intersect_stepwise", "pymarket/statistics/profits.py: calculate_profits", "pymarket/statistics/maximum_traded_volume.py: percentage_traded", "pymarket/statistics/maximum_aggregated_utility.py: percentage_welfare"]}
{"id": "C98", "title": "Market.run and Market.statistics on IEEE 754 doubles, from the bids to the profits", "statement": "Market.run('huang') (merging bids of one rounded price, clearing, splitting the transactions of a merged bid among its bids) and Market.run('muda'), executed with IEEE 754 doubles, numpy's sums and pandas' group sums, return exactly the result of the rounded model with the rounding binary64, for all tables of doubles with quantities of at most 2^a (not negative for Huang), prices of at most 2^b, a + b <= 500 and at most 2^40 bids. np.round to at most 15 digits before or after the point is as modelled and np.rint of a double is a double. The profits and percentages of the transactions that such a run returns, and of MUDA's fees, are those of the rounded model too, without any assumption on the transactions. So, with doubles from end to end: after Market.run('huang') on bids of positive quantity and not negative price every bid has at most one transaction, not negative and at no worse price than its own, and no profit shown for a player at the prices it bid is negative, exactly; after MUDA every bid has at most one transaction, of at most its quantity and at no worse price, and no fee is negative.", "quantifier": "all tables of doubles of these sizes, all sampling choices and group counters, all orders of ties, all coin tosses, all values of an infinite result", "why_tests_cant": "A sign error of one unit in the last place in a profit, or an overflow in a share, occurs on particular tables only; the claim covers every table of doubles of these sizes and every intermediate value.", "anchors": ["pymarket/bids/processing.py: merge_same_price", "pymarket/transactions/processing.py: split_transactions_merged_players", "pymarket/mechanisms/mechanism.py: run", "pymarket/mechanisms/huang_auction.py: huang_auction", "pymarket/mechanisms/muda_auction.py: muda", "pymarket/market.py: run", "pymarket/market.py: statistics", "pymarket/statistics/profits.py: calculate_profits"]}
{"id": "C99", "title": "Infinite and NaN prices in the Huang auction", "statement": "For tables whose prices may be +inf, -inf or NaN (quantities rational), with pandas' order (NaN last): (a) on finite prices the auction is that of the main model; (b) with infinite prices, positive quantities, no NaN, and no more wanted at the price +inf than is offered in total, it does exactly what it does with any price P above all finite ones in place of +inf (and -P for -inf); (c) if more is wanted at +inf than is offered in total, nobody trades, although a large finite price in its place can give trade; (d) it never raises for quantities >= 0, and if no asking price is negative then sold = bought, no bid trades more than its quantity, all prices respect the bids, and so no NaN bid trades; (e) with no negative price, NaN bids are left out, except that if the curves of the other bids cross where all other bids of a side with a NaN bid are used up, the auction does nothing; (f) with negative asking prices a NaN buy bid can trade, at the price 0.", "quantifier": "all tables, all orders of ties; quantities >= 0 in (c) and (d), > 0 in (a), (b), (e)", "why_tests_cant": "Comparisons with NaN and inf - inf make the scan over curve points depend on exact coincidences of quantities; which coincidences stop the auction cannot be listed by examples.", "anchors": ["pymarket/mechanisms/huang_auction.py: huang_auction", "pymarket/bids/demand_curves.py: demand_curve_from_bids", "pymarket/bids/demand_curves.py: supply_curve_from_bids", "pymarket/bids/demand_curves.py: intersect_stepwise"]}
{"id": "C100", "title": "Markets made of generated bids: which runs succeed, and what the offsets mean", "statement": "For a market whose bids come from datasets.generate(nb, ns, offset_sellers, offset_buyers), whatever is drawn: (a) its table has nb buyers then ns sellers, one user per bid, quantities in [0,1), prices different on each side and in [offset, offset+1); (b) peer to peer runs and MUDA runs (one coin per bid) never fail; (c) with non-negative offsets, a seller, and an offset_sellers that does not round to 0, run('huang') fails exactly when there is trade and some trading bid has, with the bids of its side at its rounded price, quantity 0 - this can happen, since 0 can be drawn - and never with positive quantities; (d) if offset_buyers+1 <= offset_sellers, no mechanism trades anything, both shares of the statistics are 0/0, and after run('huang') (offset_buyers >= 0, a seller) statistics() raises ValueError unless the profits are excluded; in particular generate(i, i, 2, 1), run('huang'), statistics() of docs/Efficiency and performance.ipynb raises; (e) if offset_sellers+1 <= offset_buyers, every peer to peer run trades the total quantity of the short side, and its share of the volume is 1 (0/0 if a side has no quantity); (f) the auction on a generated table with positive quantities and non-negative offsets trades less than the crossing quantity, by less than one unit.", "quantifier": "all numbers of bidders, all offsets as stated, all positive grid sizes, all random draws, all orders of ties, all coefficients and coin tosses, all optimal solvers", "why_tests_cant": "The tests of the package draw one random market at a time; the draws that fail need a zero quantity among the winners, and the statements about all draws for an offset are about infinitely many markets.", "anchors": ["pymarket/datasets/uniform_bidders.py: generate", "pymarket/market.py: Market.accept_bid", "pymarket/market.py: Market.run", "pymarket/market.py: Market.statistics", "pymarket/mechanisms/mechanism.py: Mechanism.run", "pymarket/statistics/maximum_traded_volume.py: percentage_traded", "pymarket/statistics/profits.py: calculate_profits"]}
{"id": "C101", "title": "What Market.run('huang') gives up, with merged prices", "statement": "For every market whose bids have positive quantities and non-negative prices, and every run('huang') that returns prices (ps, pb): write t for the quantity bought and c for the crossing quantity of the table with prices rounded to 5 decimals. (a) t is the smaller of the quantity bid above pb and the quantity asked below ps (rounded prices), t < c, and c - t is at most the total quantity of all buyers that round to pb or of all sellers that round to ps, whichever is larger; (b) if no two bids of a side round to the same price, c - t is at most the quantity of one bid; different submitted prices are not enough for this: a market with quantities at most 1 is given where t = 1 and c > 3; (c) the welfare of any feasible allocation, in submitted prices, exceeds that of the run by at most (c - t)(hi - lo) + 10^-5 (volume of the allocation + t), where hi and lo bound the rounded bids from above and the rounded asks from below; (d) if the quantities strictly inside the two prices are equal, the run keeps at least the share t/c of the welfare, in rounded prices; (e) with generated bids (positive quantities, non-negative offsets) whose prices stay different after rounding, c - t is less than 1.", "quantifier": "all markets as stated, all orders of ties, all user samples and counters, all feasible allocations", "why_tests_cant": "The bound is over every market and every competing allocation, and the failure in (b) needs several bids that differ only beyond the fifth decimal at the marginal price.", "anchors": ["pymarket/market.py: Market.run", "pymarket/bids/processing.py: merge_same_price", "pymarket/mechanisms/mechanism.py: Mechanism.run", "pymarket/mechanisms/huang_auction.py: huang_auction", "pymarket/mechanisms/huang_auction.py: update_quantity", "pymarket/datasets/uniform_bidders.py: generate"]}
{"id": "C102", "title": "Generated datasets in floating point", "statement": "datasets.generate with every operation rounded (monotone, odd, idempotent rounding with relative error u <= 1/4; the positions of the grid, the number of bids and the offsets are machine numbers; eps > 0): (a) it never raises, returns the asked numbers of bids, users numbered from 0, all values machine numbers, quantities in [0,1] and prices between the offset and the rounded offset+1; (b) the quantities of a side are different if 2u is below the step that is used, the prices of a side if 2u(2+|offset|) is; (c) in double precision this applies up to 2^53 bids and grid points, with 2u = 2^-52; for large offsets prices of a side can be equal (offset 2^53, step 1/4), which never happens in exact arithmetic; (d) if the step is 2^-k (k <= 52), the offsets are non-negative multiples m of it with m + 2^k <= 2^53 and there are at most 2^k bids a side, the result is the exact one; (e) peer to peer trading, and MUDA for non-negative offsets, in the same arithmetic never fail on the generated bids, equal prices included; (f) without rounding it is the exact generator of C41.", "quantifier": "all roundings as stated, all numbers of bidders, all positive steps, all offsets and random draws, all coefficients, coin tosses and orders of ties", "why_tests_cant": "The tests draw a few markets with small offsets; a wrong length of the grid or two equal prices show only for particular steps or for offsets near 2^53.", "anchors": ["pymarket/datasets/uniform_bidders.py: generate", "pymarket/mechanisms/p2p_random.py: p2p_random", "pymarket/mechanisms/muda_auction.py: muda"]}
{"id": "C103", "title": "Infinite and NaN prices in MUDA", "statement": "muda on tables whose prices may be +inf, -inf or NaN (nonnegative quantities, distinct labels; exact quantities): (a) with rational prices it is MUDA of the main model, errors included; (b) whenever it returns, the bids are split in two halves, each half trades at the competitive price of the other half, every transaction is at this price and belongs to a different bid that accepts it (so no NaN bid trades, and nothing is traded at the price NaN), what is bought and what is sold in the half both equal the smaller of the quantities that accept the price, a strictly better bid is filled before a worse one of its side trades; each user has a fee that is a nonnegative number or infinite, never NaN; (c) it returns if the users are numbered from 0 and no user has two bids of one side at one price (NaN prices never count as equal, infinite ones do); otherwise it raises NotImplementedError in that case or IndexError, nothing else; (d) a half trades as if its NaN bids were not there; (e) if all bids fall in the left half its price is infinite: the bids to buy at any price are served at an infinite price as far as there is supply; so, refuting the expectation, an infinite price is paid although no seller asks for it, and a user whose bids are all finite can be charged an infinite fee.", "quantifier": "all tables of bids with nonnegative quantities and any prices, all coin tosses, all orders of ties", "why_tests_cant": "The tests have no infinite or NaN price; the infinite price occurs only for the random splits that leave a half without a crossing.", "anchors": ["pymarket/mechanisms/muda_auction.py: muda", "pymarket/mechanisms/muda_auction.py: solve_market_side_with_exogenous_price", "pymarket/mechanisms/muda_auction.py: compute_fee", "pymarket/mechanisms/muda_auction.py: find_competitive_price", "pymarket/utils/decorators.py: check_equal_price"]}
{"id": "C104", "title": "Infinite and NaN prices in Market.run('huang')", "statement": "Market.run('huang'), that is merging of equal prices, the auction and splitting of the transactions, on tables whose prices may be +inf, -inf or NaN (positive exact quantities, labels equal to positions): (a) with rational prices it is the run of the main model; (b) without NaN prices, and if what is wanted at the price inf does not exceed what is offered, it is the run with any integer above all rounded finite prices in place of inf, errors included; (c) if more is wanted at the price inf than is offered at a price, nobody trades; (d) NaN bids have no effect: changing their quantity, side, time or divisibility does not change the result; (e) with a priced bid on either side and no negative asking price the run returns, as much is sold as bought, each transaction belongs to a bid, is for at most its quantity, and its price respects the price of the bid rounded to five digits, so that no NaN bid has a transaction; (f) without NaN prices and negative asking prices it raises KeyError exactly if all bids are bids to buy at one rounded price, which may be inf, and nothing else; (g) under the conditions of (e) each bid has at most one transaction, so that in total no bid gets more than its quantity.", "quantifier": "all tables of bids with positive quantities and any prices, all random samples, counters and orders of ties", "why_tests_cant": "The tests have no infinite or NaN price. That groupby drops the rows whose key is NaN is a default of pandas that is not visible in the code.", "anchors": ["pymarket/bids/processing.py: merge_same_price", "pymarket/transactions/processing.py: split_transactions_merged_players", "pymarket/mechanisms/mechanism.py: Mechanism.run", "pymarket/mechanisms/huang_auction.py: huang_auction", "pymarket/market.py: Market.run"]}
{"id": "C105", "title": "Infinite and NaN prices in calculate_profits", "statement": "calculate_profits on bids, transactions, reservation prices and fees whose prices may be +inf, -inf or NaN (exact quantities): (a) with rational prices and fees it returns what the main model returns, ValueError included; (b) for any values of the bids (bid price or reservation price), if quantities are nonnegative and no deal is worth -inf, the profit of a user is inf if one of the user's deals with positive quantity is worth inf per unit, and otherwise the sum of worth times quantity over the deals whose worth is a number; deals whose gain is NaN, such as a bid at inf that pays inf, do not count; (c) the profit of the market maker is what buyers pay minus what sellers get plus the fees, where NaN counts: a side with a deal of quantity 0 at an infinite price makes it NaN; (d) after MUDA every profit of a player at the bid prices is inf or a nonnegative number, never NaN; (e) after Market.run('huang') with a priced bid on either side and no negative asking price it is inf or at least -1/200000 for each unit that the player trades, and the profit of the market maker is a nonnegative number even if bids are infinite or NaN; (f) after MUDA, if the prices of both halves are finite, the profit of the market maker is the sum of the fees, which is a nonnegative number or inf; with an infinite price of a half it can be NaN (refuted).", "quantifier": "all tables of bids, all lists of transactions, all reservation prices and fees with extended prices; for (d)-(f) all results of the mechanisms, for all random draws and orders of ties", "why_tests_cant": "The tests have no infinite or NaN price. groupby(...).sum() leaves out NaN while ndarray.sum() does not; the difference shows only with inf - inf or 0 * inf.", "anchors": ["pymarket/statistics/profits.py: calculate_profits", "pymarket/statistics/profits.py: get_gain", "pymarket/market.py: Market.statistics", "pymarket/mechanisms/muda_auction.py: muda", "pymarket/mechanisms/huang_auction.py: huang_auction"]}
{"id": "C106", "title": "Infinite and NaN prices in the uniform price mechanism", "statement": "The uniform price mechanism of docs/new_mechanism.ipynb on tables whose prices may be +inf, -inf or NaN (exact nonnegative quantities): (a) with rational prices it returns what the main model returns, errors included; (b) if there are buyers and sellers and no seller asks for less than 0, it raises TypeError exactly when the Huang auction returns its empty dictionary, and otherwise it clears the market: in the order of prices the side with less quantity trades in full and the other side up to the same quantity, at the price of the last trading bid of the longer side, or at the mean of the two last bids if both sides are equally long; (c) then the price is not NaN, as much is sold as is bought, each bid has at most one transaction, within its quantity and its price, so that no NaN bid trades and at an infinite price only bids at inf buy; (d) if more is wanted at inf than is on offer, it raises TypeError; (e) otherwise, without NaN, every bid gets the same quantity as with any number above all finite prices instead of inf; (f) a table with one side only gives an empty result. Not true: that trades have a finite price if all sellers ask for finite prices (a bid at inf and an equal offer trade at inf), and that the price is never NaN (inf against -inf).", "quantifier": "all tables of bids with extended prices, all orders of ties", "why_tests_cant": "The notebook is run once on finite prices; an infinite clearing price needs a bid at inf whose quantity is exactly that of the cheapest sellers.", "anchors": ["docs/new_mechanism.ipynb: uniform_price_mechanism", "pymarket/bids/demand_curves.py: intersect_stepwise", "pymarket/bids/demand_curves.py: demand_curve_from_bids", "pymarket/bids/demand_curves.py: supply_curve_from_bids", "pymarket/mechanisms/mechanism.py: Mechanism._run"]}
{"id": "C107", "title": "Profits after the uniform price mechanism with infinite and NaN prices", "statement": "For tables with unique labels, exact nonnegative quantities and prices that may be infinite or NaN, if no seller asks for less than 0 and the uniform price mechanism of docs/new_mechanism.ipynb returns transactions: (a) calculate_profits gives every player a profit at their bids that is infinite or a number of at least 0, never NaN, also when the price is infinite; (b) if the price is finite, the profit of the market maker is the sum of the fees; (c) if the price is infinite, it is NaN, whatever the fees are. Not true: that the profit of the market maker is always a number if all quantities are positive and no price is NaN.", "quantifier": "all tables of bids with extended prices, all orders of ties, all fees", "why_tests_cant": "No test runs calculate_profits on an infinite price; the NaN needs a bid at inf whose quantity is exactly that of the cheapest sellers, and the profits of the players look ordinary in the same run.", "anchors": ["docs/new_mechanism.ipynb: uniform_price_mechanism", "pymarket/statistics/profits.py: calculate_profits", "pymarket/statistics/profits.py: get_gain"]}
{"id": "C108", "title": "Infinite and NaN prices in peer to peer trading, and the profits after it", "statement": "p2p_random on tables whose prices may be +inf, -inf or NaN (exact nonnegative quantities, labels are positions, rational coefficient): (a) with rational prices it returns what the main model returns; (b) a run always returns, its transactions are those of the meetings, two for each with the same quantity and price, a pair deals exactly if the buyer offers at least what the seller asks, at the mixed price, and nobody gets more than the quantity of the bid; (c) a bid at NaN gets only transactions of quantity and price 0; (d) without NaN, who meets and how much is traded is the same with any number above all finite prices instead of inf, and with any other coefficient; (e) for a coefficient in [0, 1] the price of a deal is NaN exactly if inf meets -inf, or the coefficient is 0 and the buyer's price infinite, or it is 1 and the seller's price infinite, and otherwise it lies between the two bids; (f) calculate_profits gives every player a profit that is infinite or a number of at least 0, whatever the prices are; (g) the market maker gets the sum of the fees if price times quantity is a number for every transaction, and NaN otherwise. Not true: that the market maker's profit is a number if quantities are positive and no price is NaN, and that deals have a price that is not NaN.", "quantifier": "all tables of bids with extended prices, all sequences of random choices, all coefficients ((e), (f): in [0, 1]), all fees", "why_tests_cant": "No test has infinite prices; that one deal at inf among many ordinary ones turns the market maker's profit into NaN while no player's profit becomes NaN depends on two different treatments of NaN in pandas and numpy.", "anchors": ["pymarket/mechanisms/p2p_random.py: p2p_random", "pymarket/statistics/profits.py: calculate_profits", "pymarket/statistics/profits.py: get_gain"]}
{"id": "C109", "title": "Infinite and NaN prices in maximum_traded_volume and percentage_traded", "statement": "On tables whose prices may be +inf, -inf or NaN (exact nonnegative quantities, labels are positions), with any solver that returns an optimum when there is one: (a) maximum_traded_volume builds the linear program of the table in which infinite prices are replaced by numbers beyond all finite ones, buyers at NaN by buyers below and sellers at NaN by sellers above everybody; (b) so percentage_traded is half of the traded quantity over the largest volume that can be traded between bids that accept each other's price, with no part for bids at NaN, and None if this volume is 0; it raises no error; (c) without NaN, peer to peer trading reaches a ratio of at least 1/2, also at infinite prices.", "quantifier": "all tables of bids with extended prices, all transactions, all solvers that return optima; (c): all random choices and coefficients", "why_tests_cant": "No test has infinite or NaN prices; that the program stays finite, and that one side at NaN only gives None and not an error, concerns all tables.", "anchors": ["pymarket/statistics/maximum_traded_volume.py: maximum_traded_volume", "pymarket/statistics/maximum_traded_volume.py: percentage_traded", "pymarket/mechanisms/p2p_random.py: p2p_random"]}
{"id": "C110", "title": "With infinite and NaN prices, no mechanism trades more than can be traded", "statement": "On tables whose prices may be +inf, -inf or NaN (exact nonnegative quantities, labels are positions), with any solver that returns an optimum when there is one: if percentage_traded returns a number, it is between 0 and 1 after (a) peer to peer trading and (b) MUDA, for any prices; and after (c) the Huang auction and (d) the uniform price mechanism, if no seller asks for less than 0. Without this condition (c) and (d) are false: after the Huang auction a buyer at NaN can trade with sellers that ask for a negative price, and the ratio can be 2 (C110_negative_refuted); the uniform price mechanism can reach 3/2 without NaN (C110_uniform_refuted).", "quantifier": "all tables of bids with extended prices, all sorting orders, random choices, splits and coefficients, all solvers that return optima", "why_tests_cant": "No test has infinite or NaN prices; the bound compares what each mechanism trades with an optimum over all allocations.", "anchors": ["pymarket/statistics/maximum_traded_volume.py: percentage_traded", "pymarket/mechanisms/p2p_random.py: p2p_random", "pymarket/mechanisms/muda_auction.py: muda", "pymarket/mechanisms/huang_auction.py: huang_auction", "docs/new_mechanism.ipynb: uniform_price_mechanism"]}
{"id": "C111", "title": "With infinite and NaN prices, rounding in Market.run('huang') does not let bids trade that could not", "statement": "Market.run('huang') on a table whose prices may be +inf, -inf or NaN (exact positive quantities, labels are positions, a bid with a price on either side, no seller asks for less than 0), prices being rounded to five digits and bids of equal rounded price merged: (a) every buyer that gets a transaction offers at least what every seller that gets a transaction asks, in the prices before rounding; (b) if percentage_traded returns a number, it is between 0 and 1. With sellers below 0 (b) is false, also for finite prices: the ratio can be 2 (C111_negative_refuted).", "quantifier": "all tables of bids with extended prices, all sorting orders, all samples and user counters of the merge, all solvers that return optima", "why_tests_cant": "That two roundings never make a pair of traders that would refuse each other depends on the order of four prices; no test has prices that agree in five digits, infinite or NaN prices.", "anchors": ["pymarket/market.py: Market.run", "pymarket/bids/processing.py: merge_same_price", "pymarket/transactions/processing.py: split_transactions_merged_players", "pymarket/mechanisms/huang_auction.py: huang_auction", "pymarket/statistics/maximum_traded_volume.py: percentage_traded"]}
{"id": "C112", "title": "Peer to peer trading reaches one half of the maximum volume also when prices are NaN", "statement": "p2p_random on a table whose prices may be +inf, -inf or NaN (exact quantities, labels are positions): (a) the run is that of a table with rational prices in which every NaN bid to buy is below all asks and every NaN ask is above all bids: same transactions except for their prices, same trading list, same errors; (b) with quantities of at least 0, if percentage_traded returns a number it is at least 1/2. C109 had (b) only without NaN. With NaN prices the ratio can be exactly 1/2, so it need not be above it (C112_more_refuted).", "quantifier": "all tables of bids with extended prices, all random choices, all pricing coefficients, all solvers that return optima", "why_tests_cant": "No test has a NaN price, and the bound holds for every sequence of random pairings.", "anchors": ["pymarket/mechanisms/p2p_random.py: p2p_random", "pymarket/statistics/maximum_traded_volume.py: percentage_traded", "pymarket/statistics/maximum_traded_volume.py: maximum_traded_volume"]}
