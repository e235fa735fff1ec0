-Q theories Verif
theories/Base.v
theories/Money.v
theories/MoneySpec.v
theories/MoneyProofs.v
theories/PropsMoney.v
theories/Proto.v
theories/Signature.v
theories/SignatureSpec.v
theories/SignatureProofs.v
theories/PropsSignature.v
theories/Rfc1321.v
theories/Md5Wrapper.v
theories/PropsMd5.v
theories/Distribution.v
theories/DistributionSpec.v
theories/DistributionProofs.v
theories/Float64Proofs.v
theories/PropsDistribution.v
theories/DistributionRSpec.v
theories/DistributionLinear.v
theories/DistributionExp.v
theories/PropsBuckets.v
theories/DistributionMeanSpec.v
theories/DistributionSpread.v
theories/DistributionMean.v
theories/DistributionSsd.v
theories/DistributionAccuracy.v
theories/DistributionClose.v
theories/PropsMean.v
theories/OpAgg.v
theories/OpAggSpec.v
theories/OpAggProofs.v
theories/QuotaOpAggProofs.v
theories/PropsOpAgg.v
theories/Lru.v
theories/LruSim.v
theories/LruOps.v
theories/LruOps2.v
theories/LruSpec.v
theories/LruInv.v
theories/LruBooks.v
theories/LruStep.v
theories/LruProofs.v
theories/LruClaims.v
theories/LruOrder.v
theories/PropsLru.v
theories/LruPeek.v
theories/PropsLru2.v
theories/Timeout.v
theories/TimeoutProofs.v
theories/LinkedList.v
theories/LinkedListProofs.v
theories/PropsTimeout.v
theories/Agg.v
theories/AggCache.v
theories/TimeoutSign.v
theories/OpGroups.v
theories/CheckAgg.v
theories/CheckAggSpec.v
theories/CheckAggProofs.v
theories/CheckAggInv.v
theories/CheckAggClaims.v
theories/PropsCheck.v
theories/ReportAgg.v
theories/ReportAggSpec.v
theories/ReportAggProofs.v
theories/ReportAggInv.v
theories/ReportAggStep.v
theories/ReportAggClaims.v
theories/PropsReport.v
theories/QuotaAgg.v
theories/QuotaFuel.v
theories/QuotaSim.v
theories/QuotaStep.v
theories/QuotaStep2.v
theories/QuotaTrace.v
theories/QuotaAggSpec.v
theories/QuotaCall.v
theories/QuotaInv.v
theories/QuotaMove.v
theories/QuotaLife.v
theories/QuotaAggClaims.v
theories/QuotaTerm.v
theories/QuotaAcct.v
theories/PropsQuota.v
theories/Client.v
theories/ClientSpec.v
theories/ClientInv.v
theories/ClientCalls.v
theories/ClientStage.v
theories/ClientFlush.v
theories/ClientLocks.v
theories/ClientLive.v
theories/ReportDrain.v
theories/ClientEnd.v
theories/ClientDrain.v
theories/ClientCount.v
theories/ClientFacts.v
theories/ClientCache.v
theories/ClientOptions.v
theories/ClientQuiet.v
theories/ClientBodies.v
theories/ClientRun.v
theories/ClientCrash.v
theories/ClientClaims.v
theories/PropsClient.v
theories/PropsClient2.v
theories/ClientTick.v
theories/ClientWhole.v
theories/PropsClient3.v
theories/ClientAnswers.v
theories/PropsClient4.v
theories/ClientQuota.v
theories/PropsClient5.v
theories/ClientCheckEnd.v
theories/ClientFresh.v
theories/QuotaFresh.v
theories/ClientQuotaFresh.v
theories/PropsClient6.v
theories/PropsClient7.v
theories/ClientReportTime.v
theories/PropsClient8.v
theories/LinkLay.v
theories/PLru.v
theories/PLruProofs.v
theories/PLruRest.v
theories/PLruSpec.v
theories/PLruClaims.v
theories/PropsPLru.v
theories/Sample.v
theories/PropsSample.v
theories/SampleThreads.v
theories/ClientDisabled.v
theories/PropsSample2.v
theories/PAgg.v
theories/PAggProofs.v
theories/PAggBack.v
theories/PropsPAgg.v
theories/PQuota.v
theories/PQuotaProofs.v
theories/PQuotaFuel.v
theories/PQuotaOwn.v
theories/PQuotaBack.v
theories/PropsPQuota.v
theories/StlUtil.v
theories/StlUtilSpec.v
theories/StlUtilProofs.v
theories/PropsStl.v
theories/PLruAge.v
theories/PropsPLru2.v
